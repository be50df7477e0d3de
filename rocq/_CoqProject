-Q theories Verif
theories/Base.v
theories/Math_Model.v
theories/Math_Proofs.v
theories/HashMap_Model.v
theories/HashMap_Spec.v
theories/HashMap_Proofs.v
theories/Math_Props.v
theories/HashMap_Props.v
theories/Res.v
theories/RBTree_Model.v
theories/RBTree_Proofs.v
theories/RBTree_Props.v
theories/Bits.v
theories/Tables_Model.v
theories/Tables_Proofs.v
theories/Tables_Props.v
theories/Chars.v
theories/Names_Model.v
theories/Names_Spec.v
theories/Names_Proofs.v
theories/Names_Props.v
theories/Desc_Model.v
theories/Desc_Spec.v
theories/Desc_Proofs.v
theories/Desc_Props.v
theories/Utf8_Model.v
theories/Utf8_Spec.v
theories/Utf8_Proofs.v
theories/Utf8_Props.v
theories/Words_Model.v
theories/Words_Spec.v
theories/Words_Proofs.v
theories/Words_Props.v
theories/Stream_Model.v
theories/Stream_Spec.v
theories/Stream_Proofs.v
theories/Stream_Props.v
theories/GcBitset_Model.v
theories/GcBitset_Proofs.v
theories/GcBitset_Props.v
theories/Interp_Types.v
theories/Interp_Model.v
theories/Jvm_Spec.v
theories/Interp_Obs.v
theories/Interp_Spec.v
theories/Interp_Rel.v
theories/Interp_Rel2.v
theories/Interp_Rel3.v
theories/Interp_Rel4.v
theories/Interp_Heap.v
theories/Interp_Arith.v
theories/Interp_Exec.v
theories/Interp_ExecA.v
theories/Interp_ExecB.v
theories/Interp_ExecC.v
theories/Interp_ExecD.v
theories/Interp_Step.v
theories/Interp_Entry.v
theories/Interp_Small.v
theories/Interp_Ops.v
theories/Interp_Ops2.v
theories/Interp_Examples.v
theories/Interp_Props.v
theories/Conc.v
theories/Enter_Model.v
theories/Enter_Spec.v
theories/Enter_Proofs.v
theories/Enter_Props.v
theories/Init_Model.v
theories/Init_Spec.v
theories/Init_Proofs.v
theories/Init_Props.v
theories/Chain.v
theories/PMonitor_Model.v
theories/PMonitor_Spec.v
theories/PMonitor_Proofs.v
theories/PMonitor_Props.v
theories/JMon_Model.v
theories/JMon_Spec.v
theories/JMon_Proofs.v
theories/JMon_Exec.v
theories/JMon_Props.v
theories/Gc_Model.v
theories/Gc_Spec.v
theories/Gc_Proofs.v
theories/Gc_Whole.v
theories/Gc_Run.v
theories/Gc_Props.v
theories/ArgParser_Model.v
theories/ArgParser_Spec.v
theories/ArgParser_Proofs.v
theories/ArgParser_Props.v
theories/Zone_Model.v
theories/Zone_Spec.v
theories/Zone_Proofs.v
theories/Zone_Props.v
theories/Vector_Model.v
theories/Vector_Spec.v
theories/Vector_Proofs.v
theories/Vector_Props.v
theories/Finder_Model.v
theories/Finder_Spec.v
theories/Finder_Proofs.v
theories/Finder_Props.v
theories/Layout_Model.v
theories/Layout_Spec.v
theories/Layout_Proofs.v
theories/Layout_Props.v
theories/Hier_Model.v
theories/Hier_Spec.v
theories/Hier_Tables.v
theories/Hier_Proofs.v
theories/Hier_Assign.v
theories/Hier_Props.v
theories/Hash_Model.v
theories/Hash_Spec.v
theories/Hash_Proofs.v
theories/Hash_Props.v
theories/Str_Model.v
theories/Str_Spec.v
theories/Str_Proofs.v
theories/Str_Props.v
theories/Alloc_Model.v
theories/Alloc_Spec.v
theories/Alloc_Proofs.v
theories/Alloc_Props.v
theories/Jref_Model.v
theories/Jref_Spec.v
theories/Jref_Proofs.v
theories/Jref_Props.v
theories/Ttree_Model.v
theories/Ttree_Spec.v
theories/Ttree_Proofs.v
theories/Ttree_Props.v
theories/Weak_Model.v
theories/Weak_Spec.v
theories/Weak_Proofs.v
theories/Weak_Props.v
theories/JNum_Model.v
theories/JNum_Spec.v
theories/JNum_Proofs.v
theories/JNumBits_Proofs.v
theories/JNum_Props.v
theories/JMap_Model.v
theories/JMap_Spec.v
theories/JMap_Proofs.v
theories/JMap_Iter.v
theories/JMap_Hist.v
theories/JMap_Props.v
theories/HeapWalk_Model.v
theories/HeapWalk_Spec.v
theories/HeapSet_Proofs.v
theories/HeapWalk_Proofs.v
theories/HeapWalk_Props.v
theories/X86_Model.v
theories/X86_Spec.v
theories/X86_Decode.v
theories/X86_Proofs.v
theories/X86_Sem.v
theories/X86_Branch.v
theories/X86_Props.v
theories/FrameMap_Model.v
theories/FrameMap_Spec.v
theories/FrameMap_Proofs.v
theories/FrameMap_Log.v
theories/FrameMap_Sound.v
theories/FrameMap_Fix.v
theories/FrameMap_Complete.v
theories/FrameMap_Term.v
theories/FrameMap_Props.v
theories/FrameTable_Model.v
theories/FrameTable_Spec.v
theories/FrameTable_Proofs.v
theories/FrameTable_Props.v
theories/CallTable_Model.v
theories/CallTable_Proofs.v
theories/CallTable_Props.v
theories/LocalRef_Model.v
theories/LocalRef_Spec.v
theories/LocalRef_Proofs.v
theories/LocalRef_Props.v
theories/JDeque_Model.v
theories/JDeque_Spec.v
theories/JDeque_Proofs.v
theories/JDeque_Props.v
theories/ArrayCopy_Model.v
theories/ArrayCopy_Spec.v
theories/ArrayCopy_Proofs.v
theories/ArrayCopy_Props.v
theories/JBits_Model.v
theories/JBits_Spec.v
theories/JBits_Proofs.v
theories/JBits_Props.v
theories/JQueue_Model.v
theories/JQueue_Spec.v
theories/JQueue_Proofs.v
theories/JQueue_Props.v
theories/JFuture_Model.v
theories/JFuture_Spec.v
theories/JFuture_Proofs.v
theories/JFuture_Props.v
theories/PSet_Model.v
theories/PSet_Spec.v
theories/PSet_Proofs.v
theories/PSet_Props.v
theories/CMap_Model.v
theories/CMap_Spec.v
theories/CMap_Proofs.v
theories/CMap_Props.v
theories/JList_Model.v
theories/JList_Spec.v
theories/JList_Proofs.v
theories/JList_Props.v
theories/BQueue_Model.v
theories/BQueue_Spec.v
theories/BQueue_Proofs.v
theories/BQueue_Props.v
theories/CLayout_Model.v
theories/CLayout_Spec.v
theories/CLayout_Proofs.v
theories/CLayout_Props.v
theories/EHT_Model.v
theories/EHT_Spec.v
theories/EHT_Proofs.v
theories/EHT_Props.v
theories/JSort_Model.v
theories/JSort_Spec.v
theories/JSort_Proofs.v
theories/JSort_Props.v
theories/JArrayList_Model.v
theories/JArrayList_Spec.v
theories/JArrayList_Proofs.v
theories/JArrayList_Props.v
theories/Resolve_Model.v
theories/Resolve_Spec.v
theories/Resolve_Proofs.v
theories/Resolve_Props.v
theories/ClassLoad_Model.v
theories/ClassLoad_Spec.v
theories/ClassLoad_Proofs.v
theories/ClassLoad_Props.v
theories/MultiArray_Model.v
theories/MultiArray_Spec.v
theories/MultiArray_Proofs.v
theories/MultiArray_Props.v
theories/JBuilder_Model.v
theories/JBuilder_Spec.v
theories/JBuilder_Proofs.v
theories/JBuilder_Props.v
theories/JString_Model.v
theories/JString_Spec.v
theories/JString_Proofs.v
theories/JString_Props.v
theories/CPool_Model.v
theories/CPool_Spec.v
theories/CPool_Proofs.v
theories/CPool_Props.v
theories/JniId_Model.v
theories/JniId_Proofs.v
theories/JniId_Props.v
theories/JIo_Model.v
theories/JIo_Spec.v
theories/JIo_Proofs.v
theories/JIo_Props.v
theories/JUtf8_Model.v
theories/JUtf8_Proofs.v
theories/JUtf8_Props.v
theories/JBuffer_Model.v
theories/JBuffer_Spec.v
theories/JBuffer_Proofs.v
theories/JBuffer_Props.v
theories/JLinked_Model.v
theories/JLinked_Spec.v
theories/JLinked_Proofs.v
theories/JLinked_Props.v
theories/JRandom_Model.v
theories/JRandom_Spec.v
theories/JRandom_Proofs.v
theories/JRandom_Props.v
theories/JToken_Model.v
theories/JToken_Spec.v
theories/JToken_Proofs.v
theories/JToken_Props.v
theories/JShuffle_Model.v
theories/JShuffle_Props.v
theories/JCrc_Model.v
theories/JCrc_Spec.v
theories/JCrc_Proofs.v
theories/JCrc_Props.v
theories/JProps_Model.v
theories/JProps_Spec.v
theories/JProps_Proofs.v
theories/JProps_Props.v
theories/JWindow_Model.v
theories/JWindow_Props.v
