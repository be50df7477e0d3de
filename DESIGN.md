# Formal model of avian in Rocq — design

## Layout

    properties.jsonl         the English properties (C01 ...)
    MANIFEST.json            property -> theorem names and status
    seeded/LOG.jsonl         mutation experiments
    rocq/theories/
      Base.v                 shared arithmetic/list lemmas (no model content)
      <Area>_Model.v         executable Gallina model, every definition cites /repo
      <Area>_Spec.v          (where needed) independent specification
      <Area>_Proofs.v        lemmas
      <Area>_Props.v         only the property theorems (`exact lemma`) + Print Assumptions,
                             and the non-vacuity examples

Conventions: the model targets the 64-bit little-endian configuration
(`BytesPerWord = 8`).  Machine integers are `Z`/`N` with the wrap-around written out
where it matters.  Undefined behaviour, `abort(t)`, failed `expect`/`assertT` are
distinct outcomes (`None`, `Abort`, `UB`), never totalised away.  Loops are
structural recursion or fuel with a distinct out-of-fuel outcome which the theorem excludes.
When the faithful model violates the English property the theorem is named
`..._refuted` and exhibits the witness; a companion theorem states what does hold.

## Plan per property

| id | model | proof |
|----|-------|-------|
| C01 C02 | bucket array = list of chains; find/insert/remove/resize as in util.cpp, parametric in hash/equality | refinement to an association function over all op lists; invariant: count, bucket placement, power of two |
| C03 | same model with a liveness oracle per key, `die` operation | invariant over op/die interleavings |
| C04 C05 C06 | node heap (address -> node), path-cloning find, ancestor list, rebalancing loop of treeAdd on the heap | heap-to-tree abstraction, red-black invariant by induction over the ancestor zipper; frame lemma for old addresses |
| C07 | words as N, bit operations | induction on field width |
| C08 C09 | UTF-16 unit lists, byte lists | induction over the string; refutation for U+0000 |
| C10 | stream = (bytes, position); size_t arithmetic mod 2^64 | induction over op list |
| C11 C12 | fold over field descriptors computing offsets / mask | invariant of the fold |
| C13 | 64-bit packing with shifts | bitwise/arithmetics |
| C14 | the binary-search loop with fuel | loop invariant; refutation (divergence) for repeated pcs |
| C15 | pointer walk on the descriptor bytes | induction on the descriptor grammar |
| C16 | word array with mask area at the end | arithmetic + update lemmas |
| C17 | word array, cursor/length words, exact address map | invariant over next |
| C18 | object heap (class, fields), roots; pointer-threaded copy loop | invariant (forwarding map is a partial isomorphism), termination measure |
| C19 | generations, remembered set, stores | invariant over op lists |
| C20 C21 | object header state machine + copy/clone | induction over histories; refutation for clone |
| C22 | allocation counter, alone and inside the machine of C48 | invariant |
| C23 | intrusive doubly linked list on a node heap | representation invariant |
| C24-C26 | interleaving transition system for the Java monitor, per atomic step | inductive invariant |
| C27 | transition system for posix Monitor | inductive invariant |
| C28 C29 | transition system for class init | inductive invariant; refutation of the wake-up |
| C30 | transition system for `enter` | inductive invariant |
| C31 | class chains, vtable construction | induction over the hierarchy |
| C32 | class table, isAssignableFrom | soundness and completeness against an inductive subtype relation |
| C33 C34 | JarIndex table | refinement; refutation for non-ASCII names |
| C35 | Tokenizer, finder chain | induction on the string |
| C36 C37 | Zone segments / Vector | invariant over op lists |
| C38-C42 | instruction semantics on the tagged stack | equational, all operands; refutations where the C++ deviates |
| C43 C44 | frame stack in one word array | induction over frames |
| C45 | mangle | unmangler as left inverse |
| C46 | thread tree on a node heap | representation invariant; refutations |
| C47 | reference lists | invariant over collections |
| C48 | threads with buffers, pool, fixed objects, memory contents; small steps of allocate3 | inductive invariant over all interleavings |
| C49 | two string representations | equational; side condition / refutation for bytes >= 0x80 |
| C50 | parser loop | soundness and completeness against a grammar |
| C51 | math helpers of util/math.h on 32-bit words | arithmetic |
| C52 C53 | hash map model of C01-C03 | refutation / invariant |
| C54 | line table search of C14 | refutation by an execution |
| C55 C57 | mangler of C45 against the JNI rules | refutation; equality on the covered alphabet |
| C56 | descriptor walk of C15 on truncated input | refutation |
| C58-C66 | instruction semantics of C38-C44 against `Jvm_Spec` | refutation by an execution |
| C67 | transition system of C28 | refutation by an execution |
| C68 | transition system of C27 | refutation by an execution |
| C69 C70 | transition system of C24-C26; outcome of the entry points | refutation by an execution; case analysis |
| C71 | models of C36 and C37 | refutation by an execution |
| C72 | class path expansion of C35 | refutation for all fuels |
| C77 | model of C20 | direct computation on memory |
| C78 | model of C49 | refutation by computation (602 strings) |
| C79 C80 | allocation sizes in 32-bit arithmetic, model of C22 C48 | arithmetic; witnesses |
| C81 C82 | model of C46 | induction over trees and histories; witnesses |
| C83 C84 | model of C47: postVisit on arbitrary heap graphs | fate of each reference; invariants over histories |
| C85 C86 | same model | witnesses |
| C87 C88 | Java methods of Long, Integer, Character as functions on Z with wraparound; strings as lists of chars | digits of a number and Horner's rule; witnesses |
| C89 C90 C91 C92 | the same files | exhaustive check of 16-bit halves lifted to 32 bits; arithmetic; witnesses |
| C93 C94 C95 | HashMap at the level of cells and chains, the iterator with its five fields, HashSet, WeakHashMap.poll, EntrySet | buckets as lists of cells, entries listed once each up to key equality; induction over histories; witnesses |
| C96 C97 | the heap walker with its object table, chunked stack and gotos; the dump visitor and its bytes; a reader of the file | the table as a numbering; depth-first search by induction on the objects not yet seen and on the remaining fields; replay of the events; parsing by the order of tags |
| C98 C99 C100 C101 C102 | the byte sequences emitted by encode.cpp and operations.cpp for each operation; separately a decoder and a processor for the x86-64 instructions used | encoder/decoder lemmas for REX, ModRM, SIB, displacements and immediates; each sequence executed symbolically; modular arithmetic; the flags of a subtraction against the signed order; witnesses |
| C103 C104 C105 C106 | the event log of the compiler, the passes over it (calculateFrameMaps, calculateTryCatchRoots), the handler loop and the dirtyRoots loop; paths of the bytecode as an inductive relation | log as trees; a clean pass is a fixed point of the data flow equations; every clear bit has a witness path; passes are monotone and each dirty one lowers a map; counterexamples by computation |
| C107 C108 | the table as a list of 32-bit words, 32-bit arithmetic explicit, out-of-bounds access as an outcome | bit-level view of the table as invariant of the filling loops; division lemma that recovers the index size; binary search; counterexample by computation |
| C109 | nodes, tables and root as shared memory; insertion in four steps, lookups in single steps, any schedule | invariant: the chains of every table are finite and hold all finished insertions; no step changes a node below the node being inserted |
| C110 C111 C112 | cells of C23, the stack of saved heads, PopLocalFrame as the loop it is; the program as the references it holds frame by frame | invariant: the list is split into the cells of each frame, and the count of a cell is at least one plus the references held in newer frames; counterexamples by computation |
| C113 C114 | ArrayDeque with its array, indexes and size; Java's arrays as lists with checked indexes | the i-th element is at (start + i) mod length; each call keeps that relation to a list; counterexamples by computation |
| C115 C116 C117 | arrayCopy on the bytes of the bodies, with the wrapping products, the overflowing sums and the flags the machine gives to array classes | bytes to elements by windows of the spliced list; counterexamples by computation |
| C118 C119 | BitSet on words of 64 bits, with Java's shifts and wrapping ints | the i-th bit is bit i mod 64 of word i / 64; induction over the words of a range; counterexamples by computation |
| C120 | ConcurrentLinkedQueue, every access to shared memory a step, any number of calls; observers record what the queue held during each call | the nodes are linked in the order of their linking; facts for each place of a call, stable under the steps of others |
| C121 C122 | FutureTask with its monitor, interrupts and time; every access a step | facts for each place of a call, stable under the steps of others; who waits in vain is about to be notified; counterexamples by computation |
| C123 C124 C125 C126 | red-black trees as zippers: find, add, remove, replaceWith, successor, predecessor; TreeSet, its iterator and TreeMap upon them | invariant of red-black trees for tree and frames; in-order lists; each call refines the sorted list |
| C127 C128 | ConcurrentHashMap over the tree of C123; content objects with identities, compare-and-swap; every access to the field a step | the tree agrees with the map; each place of a call knows what its attempt does to the content it read; log of the calls in the order they act |
| C129 C130 | LinkedList's cells with next and prev, and its iterators | the cells represent a sequence, kept by every call; an iterator's place is that of a cursor |
| C131 C132 | LinkedBlockingQueue: threads, the lock's waiting set, interruptions, time; a critical section is a step | log of the calls in the order they act; the log replays the abstract queue; a call in the waiting set is blocked |
| C133 C134 | the walk of compile() over bytecode as a function that emits events; cutting into blocks, nextBlock chains and the final order | each event's successor in bytecode order is what the walk over blocks reaches next; induction over the remaining events |
| C135 C136 C137 | the loop that compiles handlers, and the translation of both tables, over the layout of CLayout | the offset of an instruction is at most an address iff the instruction does not come after the one whose code is there; invariants of the loop |
| C138 C139 | introSort with partition and heapSort, insertionSort, both binary searches, reverse, over sequences | every step of introSort exchanges two elements, so insertionSort, which sorts anything, gets a permutation; sentinels bound the scans; intervals for searches |
| C140 C141 | array and size with grow, shrink, resize and arraycopy; the iterator | the first size places of the array are the list; halving keeps room for the old size |
| C142 C143 C144 C145 | lookup in field, method and interface tables of the loaded classes of Hier | against the lookup of JVMS 5.4.3.2 as a recursive function over class files; the loading invariant extended by where methods are listed |
| C146 C147 C148 | loaders, their maps and the classes made so far; loading as a recursion over parents and element names | invariant: every map entry is a class of that name and of the loader that delegation names, one per name; strong induction on a measure of loader and name; types and delegation as a separate specification |
| C149 C150 | the recursion of populateMultiArray over a list of arrays | arrays made under one element are numbered within one interval, intervals of different elements are disjoint; induction over counts and over the loop |
| C151 C152 | the chain of cells as a list of strings, the loops over it as recursions | the text is the end of the concatenated cells and buffer; every loop keeps the difference between its index and the characters of the remaining cells |
| C153 C154 | strings as windows on arrays, the loops of String.java as recursions over the turns left | a window is its list of characters; each loop has searched, compared or matched a prefix of it |
| C155 C156 | both passes over the stream model of C10, entries as words or objects, nested calls to a depth | the first pass by induction on the entries; in the second every word is zero or already right, and each call makes its own right |
| C157 | threads with program counters, vectors that are copied, one step per access to memory | invariant: the table answers every id written, the vector being appended to answers them too and only its end is written |
| C158 | buffer, cells and the bytes passed on; arrays with bounds | invariant: passed on ++ buffered = written, over histories |
| C159 | the stream underneath with pieces of sizes decided by an arbitrary function of the number of the call | invariant: pending = buffered ++ coming; lines by induction on the turns, against a recursive definition of the first line |
| C160 | writers to and readers of lists of bytes on Z with shifts and masks | bitwise lemmas, induction on the sequence |
| C161 | as C159, C160, with floats of Coq's SpecFloat | counterexamples computed |
| C162 | encode per character with masks and shifts; decode with arrays and bounds | single characters by enumeration of all 2^16; decode of any bytes by induction against the units found |
| C163 | the loop of read over a stream with pieces of arbitrary sizes, C159 | any prefix of an encoding is an encoding and the beginning of a character; invariant on the buffer |
| C164 | as C162, the constructor's recursion with fuel | counterexamples; out of fuel for every fuel |
| C165 | the calls over the array or memory with 32-bit arithmetic | invariant: memory is what is before, the window and what is after; simulation for every history |
| C166 | as C165 | counterexamples, some for every buffer |
| C167 | cells with previous and next, first, last, the two maps | invariant: the cells form a doubly linked chain of the keys in order; induction over histories |
| C168 | as C167 | counterexamples |
| C169 | 64-bit and 32-bit arithmetic as in the code | 2^k steps add an odd multiple of 2^k to the seed (induction on k), hence reachability bit by bit and the period; the loop ends because the state 0 is reached |
| C170 | the three loops over the text from the position | the tokens of the rest of the text as invariant; induction over the text and the calls |
| C171 | as C170 | induction on the number of calls; counterexample |
| C172 | the loop of swaps with the numbers of C169 | swaps keep the multiset; the numbers for a given order by induction on the part still to be ordered |
| C173 | as C172 | counting the 27 sequences of draws for three elements |
| C174 | the table, the mirrored bytes and the remainder of `CRC32` | one shift commutes with mirroring; eight shifts are linear over exclusive or, hence the table; then induction on the calls |
| C175 | `store` and the parser of `load` as a function of the text | induction on the characters of key and value, then on the entries |
| C176 | as C175 | computed on the model for five entries |
| C177 | as C175 | computed for the newline; for every line beginning with `\#` by induction |
| C178 | `Window.seek` with the buffer as a list | invariant: the buffer holds the part of the file from start on; induction on the reads |
| C179 | as C178, with reads that fail and leave the buffer as it was | a history of three reads, computed on the model |
| C75 C76 | model of C31 | refutation by a small hierarchy |
| C73 C74 | model of C11 with the bytes of the static table | read back after each store; refutation by computation |

## Trusted base

* Coq 8.16.1: its kernel, its guard checker, `vm_compute`, and the parser/elaborator that turns the
  files into terms. No plugin, no extraction, no OCaml of our own.
* `Print Assumptions` under every theorem named in MANIFEST.json prints "Closed under the global
  context": no theorem uses an axiom, not even one of the standard library. (`vcheck` also lists
  `Coq.ssr.ssrunder.Under_rel.*`, an opaque module of ssreflect that the imported libraries
  declare; no theorem depends on it.)
* The correspondence between the C++ text and the Gallina definitions is by reading. Every
  definition cites the file and lines it models and says where it simplifies.
* The specifications (`*_Spec.v`), which are kept small and are written from the English property
  (or the JVM/JNI/UTF-8 specification), not from the code.

## What is modelled

| files | code in /repo |
|-------|---------------|
| `HashMap_*` | src/util.cpp hash maps (find, insert, remove, resize, weak keys) |
| `RBTree_*` | src/util.cpp persistent red-black tree (treeQuery, treeInsert, treeUpdate) |
| `Words_*`, `Math_*`, `GcBitset_*` | bit fields, constant-pool and static-table masks, table-size helpers, the collector's work bitset (heap.cpp) |
| `Utf8_*`, `Stream_*`, `Tables_*`, `Desc_*`, `Names_*` | modified UTF-8 conversion, class-file stream, line tables and their packing, descriptors, JNI names |
| `Interp_*`, `Jvm_Spec` | src/interpret.cpp: the whole of interpret3 except `invokedynamic` and `multianewarray`, frames, exception dispatch, invocation |
| `Gc_*` | src/heap/heap.cpp: collect2, collect, copy, update, update2, update3, follow via pending lists, fixies, remembered slots, mark (write barrier); src/avian/machine.h setField as the store |
| `ArgParser_*` | src/util/arg-parser.cpp |
| `Zone_*`, `Vector_*` | src/avian/zone.h, src/avian/alloc-vector.h, with their 32-bit size arithmetic |
| `Layout_*` | src/machine.cpp parseFieldTable; walk (instances, static tables, arrays); machine.h singleton masks; 16-bit offsets and sizes |
| `Hier_*` | src/machine.cpp parseInterfaceTable, addInterfaces, parseMethodTable, addInterfaceMethods, isAssignableFrom; machine.h findVirtualMethod, findInterfaceMethod; classes are numbers, maps are association lists, enumeration order is a parameter |
| `Hash_*` | object headers, identity hash codes, HeapClient::copiedSizeInWords and copy, clone (machine.h, machine.cpp) |
| `Str_*` | stringHash, stringEqual, stringCharAt, stringChars, intern (machine.h, machine.cpp) |
| `Alloc_*` | heap accounting (heap.cpp allocate, tryAllocate, free, limitExceeded, allocateFixed), thread buffers (machine.h ensure, allocate, allocateSmall; machine.cpp allocate2, allocate3, postCollect, doCollect, Thread construction), array sizes of the generated constructors. Heap::collect itself is a premise here (`collected`) |
| `Jref_*` | JNI global references: class Reference, acquire, release, dispose, newGlobalRef, DeleteGlobalRef, and what a collection does to the list. Locking (referenceLock) is taken as mutual exclusion |
| `Ttree_*` | thread tree: addThread, removeThread, dispose, killZombies, visitAll, Thread::exit, DetachCurrentThread; each operation is atomic (stateLock or exclusive state) |
| `Weak_*` | postVisit: references, finalizers, JNI weak references, both generations, over an arbitrary reachability relation; new references, clear, enqueue. That objects move is not modelled here (see `Gc_*`), nor the links jNext of a queue (the queue is the log of what was put on it) |
| `JNum_*`, `JNumBits_*` | class library: `Long.toString(long, int)`, `parseLong`, `Integer.toString`, `parseInt`, `toHexString` etc., `compareTo`, `bitCount`, `numberOfLeadingZeros`, `reverseBytes`, `Character.digit`. The boxed objects, `decode` and the floating point classes are not modelled |
| `JMap_*` | class library: `java.util.HashMap` (all of the map and its iterator), `HashSet.add/remove`, `WeakHashMap.poll`, `Data.nextPowerOfTwo`, `Data.EntrySet.contains/remove`. `putAll`, `toString`, the key and value views and the hash functions of key classes are not modelled (keys are any type with equals and hashCode) |
| `HeapWalk_*`, `HeapSet_Proofs` | `src/heapwalk.cpp` (all), `src/heapdump.cpp` (all; objectSize and class names are arguments). The fields of an object are given as a list (walk/walkNext of machine.cpp is taken to list them in increasing order); numbers and capacities are unbounded in the walker and limited to 32 bits in the theorem on bytes; allocation failure is not modelled |
| `X86_*` | `src/codegen/target/x86/encode.cpp` and `operations.cpp` for 64-bit words: moves, arithmetic, shifts, comparisons, branches, SSE moves and arithmetic; `compareLongs` of `runtime.cpp`. Constants are taken as already resolved and jump offsets as filled in later. Not modelled: 32-bit pairs, calls, jumps and their fixups, float conversions, square root, atomic operations; the processor's parity flag after integer instructions, exceptions on memory access |
| `FrameMap_*` | `src/compile.cpp`: the event log (Frame::set, trace, contexts), compile(t, Frame*, ip) as depth-first traversal, compile(t, Context*) 7309-7448, calculateFrameMaps, calculateTryCatchRoots, resolveIpForwards. An instruction is its effects on slots, its branches and its successor; subroutines (jsr/ret, compiled as copies of the code) are not modelled; maps are bit vectors; the trace flag bits and the encoding of the maps into tables are not modelled here |
| `FrameTable_*` | `src/compile.cpp` makeSimpleFrameMapTable, copyFrameMap, setBit, clearBit, simpleFrameMapTableSize, findFrameMapInSimpleTable, visitStackAndLocals: a call is its offset, its map and argumentIndex; the visit of a slot is the slot's number |
| `CallTable_*` | `src/compile.cpp` findCallNode, resizeTable, insertCallNode: flags of nodes left out; the collector left out; the making of a larger table is one step, as no other thread sees it |
| `LocalRef_*` | `src/compile.cpp` makeLocalReference, disposeLocalReference, pushLocalFrame, popLocalFrame, the end of invokeNativeSlow; `src/jnienv.cpp` PopLocalFrame: objects are identities, the collector's moving is left out; the interpreter's version is not modelled |
| `JDeque_*` | `classpath/java/util/ArrayDeque.java` except addAll and the modification checks of iterators |
| `ArrayCopy_*` | `src/avian/classpath-common.h` compatibleArrayTypes, arrayCopy; the element sizes and flags of array classes from `src/machine.cpp` |
| `JBits_*` | `classpath/java/util/BitSet.java`, all of it |
| `JQueue_*` | `classpath/java/util/concurrent/ConcurrentLinkedQueue.java` add, offer, peek, poll |
| `JFuture_*` | `classpath/java/util/concurrent/FutureTask.java`, all of it |
| `PSet_*` | `classpath/avian/PersistentSet.java`, `classpath/java/util/TreeSet.java`, `classpath/java/util/TreeMap.java` (calls, `keySet().add`) |
| `CMap_*` | `classpath/java/util/concurrent/ConcurrentHashMap.java` except containsValue, putAll, entries' setValue and null values |
| `JList_*` | `classpath/java/util/LinkedList.java` except toArray, equals, hashCode |
| `BQueue_*` | `classpath/java/util/concurrent/LinkedBlockingQueue.java` except removeAll, containsAll, toArray into a given array |
| `CLayout_*` | `src/compile.cpp` compile: the order in which bytecode is visited, without jsr; `src/codegen/compiler.cpp` compile 1950-1975 and resolve: the order of blocks |
| `EHT_*` | `src/compile.cpp` the handler loop of compile, translateExceptionHandlerTable, translateLineNumberTable, resolveIpForwards, resolveIpBackwards, findExceptionHandler, without subroutines |
| `JSort_*` | `classpath/java/util/Arrays.java` sort, binarySearch; `classpath/java/util/Collections.java` sort, binarySearch, reverse |
| `JArrayList_*` | `classpath/java/util/ArrayList.java` without serialization; `classpath/java/util/Collections.java` ArrayListIterator; `AbstractCollection.java` toArray with `avian/Data.java` toArray |
| `Resolve_*` | `src/machine.cpp` findInTable, findInInterfaces, findInHierarchyOrNull, resolveField; over the classes loaded in `Hier_*`; access checks do not exist, class loading is done |
| `ClassLoad_*` | `src/machine.cpp` saveLoadedClass, makeArrayClass, resolveArrayClass, resolveSystemClass, findLoadedClass, resolveClass, resolveObjectArrayClass, defineClass; `ClassLoader.java` loadClass, `SystemClassLoader.java`; parsing of class files reduced to their name, superclasses and threads of Java loaders left out |
| `MultiArray_*` | `src/machine.cpp` populateMultiArray, `src/compile.cpp` makeMultidimensionalArray2; sizes by `Alloc_Model.arrayBytes`; collection and failing allocation left out |
| `JBuilder_*` | `classpath/java/lang/StringBuilder.java` append, charAt, insert, delete, replace, setCharAt, setLength, getChars, substring, toString, length; indexOf and the append methods of other types left out |
| `JString_*` | `classpath/java/lang/String.java` charAt, substring, compareTo, equals, indexOf, lastIndexOf, contains, startsWith, endsWith, regionMatches, trim, replace; regular expressions, encodings and case left out |
| `CPool_*` | `src/machine.cpp` 876-1201 (parsePoolEntry, parsePool), `src/avian/machine.h` 3253-3369 (layout of singletons and pools) |
| `JniId_*` | `src/jnienv.cpp` 510-533, 581-591, 1393-1416, 1447-1456; `src/util.cpp` 526-547 |
| `JIo_*` | `classpath/java/io`: BufferedOutputStream 13-61; ByteArrayOutputStream 13-111; BufferedInputStream 15-82; BufferedReader 13-96; DataOutputStream 40-82; DataInputStream 47-97 without readDouble |
| `JUtf8_*` | `classpath/avian/Utf8.java` 16-117; `Iso88591.java` 18-25; `java/io/InputStreamReader.java` 34-87; `OutputStreamWriter.java` 22-24; `java/lang/String.java` 106-152 on bytes |
| `JBuffer_*` | `classpath/java/nio/Buffer.java` 13-69; `ByteBuffer.java` 22-36, 56-69, 110-327; `ArrayByteBuffer.java` 17-83; `DirectByteBuffer.java` 21-97 |
| `JLinked_*` | `classpath/java/util/LinkedHashMap.java` 13-85, 245-265; its views and `putAll` are not |
| `JRandom_*` | `classpath/java/util/Random.java` 13-87 without the constructor at 26-34 |
| `JToken_*` | `classpath/java/util/StringTokenizer.java` 13-108 |
| `JShuffle_*` | `classpath/java/util/Collections.java` 19-32 |
| `JCrc_*` | `classpath/java/util/zip/CRC32.java` 13-69 |
| `JProps_*` | `classpath/java/util/Properties.java` 19-40, 65-190; `classpath/java/lang/Character.java` 93-110, 157-159; `classpath/java/lang/String.java` 231-256 |
| `JWindow_*` | `classpath/java/util/zip/ZipFile.java` 232-274 |
| `Finder_*` | src/finder.cpp: JarIndex (hash table and central directory parsing), tokenizer, path expansion, manifest lines; include/avian/util/hash.h |
| `Enter_*`, `Conc` | src/machine.cpp: enter |
| `Init_*` | src/machine.cpp: initClass, preInitClass, postInitClass |
| `PMonitor_*`, `Chain` | src/system/posix.cpp: Monitor, Thread::interrupt |
| `JMon_*` | src/avian/machine.h:2776-3200: the Java monitor (acquire queue, wait list, wait/notify); `JMon_Exec` runs schedules for the examples |

Modelling decisions that matter:

* Interpreter: `wfEnv` assumes `e_wrapv = true`, that is that signed overflow wraps (C66 shows what is
  lost without); the stack-tag assertions are kept as `Abort` although a release build drops them;
  rounding of float/double arithmetic is an abstract function on bit patterns (comparison,
  conversion to integers and sign are concrete); class loading and linking, native methods,
  `invokedynamic` and `multianewarray` are not modelled; resolution of constant-pool entries is a
  function of the environment.
* Collector (`Gc_*`): objects are identified by numbers, fresh numbers stand for to-space addresses; a word is
  a reference with its low bits or data; a forwarding pointer overwrites word 0 as in the code; the pointers
  threaded through dead from-space copies (the code's stack) are the `pend` table, one list per object. Which
  slots are references (`lay`, the object mask) is per object and copied with it. The heap maps are exact
  sets of slots: the code tests a few words more than one slot per bit, which only adds slots. Not
  in the model: the immortal heap, the identity-hash word added on copying, exhaustion of memory,
  weak references and finalizers; a root is visited once per collection.
* Concurrency (`Enter_*`, `Init_*`, `PMonitor_*`, `JMon_*`): interleaving of single accesses to shared memory with
  sequential consistency; system monitors are recursive locks whose wait may return spuriously.

## What is not modelled

Whatever the table above does not name. In particular: of the compiler (src/compile.cpp, src/codegen)
all but the frame maps, the call table, the method tree, local references and the x86 encoder; of the
Java class library all but the classes listed; most JNI entry points; the boot image; Windows support;
class-file parsing beyond the stream, descriptor and table functions listed above; the natives of
src/builtin.cpp.

## Findings: places where the code does not do what the property says

Each has a `_refuted` theorem, checked by the kernel, exhibiting an input or an execution.

| id | what happens |
|----|--------------|
| C09 | a string containing U+0000 is cut at it when decoded again |
| C52 | inserting a key that is present leaves the older value found after a resize |
| C54 | line lookup never ends on repeated start pcs, is wrong on unordered tables |
| C55 C57 | JNI names: digits at the start of a segment collide; other characters are not escaped |
| C56 | a truncated method descriptor is scanned past its end |
| C58 | MIN / -1 is undefined behaviour (traps on x86) in idiv, irem, ldiv, lrem |
| C59 | comparing with a NaN pushes two values (missing `else`/`break`) |
| C60 | f2l of a finite float beyond the long range is an undefined conversion |
| C61 C62 | boolean stores keep 8 bits; char fields are read sign-extended |
| C63 | aastore does not check the component type |
| C64 | wide forms: float/double loads and stores and astore of a return address fail |
| C65 | a synchronized method that assigns local 0 releases the wrong monitor |
| C66 | int/long arithmetic relies on signed wrap-around, which the build does not request |
| C29 | threads waiting for a class whose initialiser throws are not notified (`throw_` precedes `notifyAll`, machine.cpp:5243), and return normally if woken otherwise |
| C67 | a static initialiser ending with an Error leaves the class marked as initialised (the test of machine.cpp:5230 is for java.lang.Exception) |
| C68 | Monitor::notify can pick a thread that has already timed out; the thread asleep behind it stays asleep |
| C69 | monitorNotify can pick a thread that was interrupted but is still listed; it throws InterruptedException and nobody else is notified |
| C70 | monitorexit on a monitor not owned aborts the VM (expect) or follows a null pointer |
| C34 | names with bytes >= 0x80 are hashed as signed chars on lookup and as unsigned bytes on insertion: not found once the jar has more than 256 entries |
| C71 | arena sizes are computed in 32 bits: a request of 4 GiB, or any request after a 2 GiB segment, gets a block outside its segment; Vector::set2 on a vector shorter than two bytes writes out of bounds |
| C74 | field offsets and instance sizes are 16 bits: with 8192 long fields the last is laid over the object header and instances are allocated with 8 bytes; with 8190 static longs the last lies over the header of the static table |
| C75 | a class keeps the copy of an interface method its superclass inherited: with I { default m }, J extends I { default m }, S implements I, C extends S implements J, calling m on a C runs I.m instead of J.m |
| C76 | methodVirtual ignores access flags, so a package-private method is overridden by a same-named method of a subclass in another package |
| C21 | clone copies the header of an array with its marks (the line meant to clear them, machine.cpp:5520, changes the original): the clone of an array that was hashed and then moved is marked "extended" without having a hash word, so its hash code is the word behind it and changes with it |
| C78 | stringEqual reads bytes as signed, stringHash as unsigned: equal strings (bytes above 127 against chars) have different hash codes, and intern keeps both once the table has 512 buckets |
| C79 | array sizes are computed in 32 bits: `new long[1<<29]`, `new int[1<<30]`, `new char[0x7fffffff]` get a 16-byte object whose length field says otherwise; every access then leaves the object |
| C80 | the check against the heap limit adds in 32 bits: `new int[0x3ffffff0]` under a 128 MB limit obtains 4 GB and lowers the recorded usage |
| C46 | the first thread may exit while others live (DestroyJavaVM with daemon threads): its children keep a parent pointer to freed memory, `footprint`, `postCollect` and `killZombies` no longer visit all but one of them, and the next exit makes `dispose` read the freed thread |
| C82 | `removeThread` decrements `threadCount` and then calls `Thread::dispose`, which decrements it again, so `expect(threadCount == 0)` aborts the VM at exit; it also drops every thread added to the same parent since |
| C47 | an unreachable Reference whose queue is reachable is cleared and enqueued by the collector even though its target is strongly reachable (`referenceUnreachable`) |
| C85 | `clearTargetIfFinalizable` nulls the target before the lists are scanned, so a reference to an object with a finalizer is never enqueued |
| C86 | `referenceUnreachable` drops a reference without clearing it; if an object queued later in the same collection (a tenured finalizable object, or an enqueued reference) holds it, `get()` returns a pointer to freed memory |
| C88 | `parseLong("")` and `parseLong("-")` return 0, out-of-range texts wrap silently, more than 19 leading zeros lose the number |
| C91 | `Integer.compareTo` subtracts: `Integer.MAX_VALUE` compares less than -1 |
| C92 | `Long.toString(v, 1)` never terminates; `Long.toHexString(-1)` is "-1"; `Integer.reverseBytes(0x11223344)` is 0x44006611 (mask 0xFF00 should be 0xFF0000) |
| C95 | `HashSet.remove(x)` returns `map.remove(x) != Value`: true exactly when x was absent |
| C95 | `HashMap.remove(Cell)` (used by `WeakHashMap.poll`) never advances its previous-cell variable, so removing a cell that is not first in its chain makes its successor the head and drops the cells before it: live entries vanish from the map while size still counts them |
| C95 | `entrySet().contains(e)` and `remove(e)` ignore the value of e |
| C95 | `new HashMap(n)` for n > 2^30 loops for ever in `Data.nextPowerOfTwo` |
| C102 | moving a 4-byte float between an xmm register below 8 and one from 8 on encodes the prefix with the registers swapped (`maybeRex(c, 4, a, b)` with `modrm(a, b)`): the wrong register is written; the same swap in `compareFloatRR` and in `floatNegateRR`/`floatAbsoluteRR` with distinct registers |
| C102 | `fcmpg` followed by `iflt`/`ifle` jumps when an operand is NaN: `jb`/`jbe` are taken for unordered results |
| C102 | dividing the most negative int or long by -1 traps (the VM reports a division by zero) instead of giving the dividend; remainder likewise |
| C102 | shifting by a constant outside -128..127 (`x << 200`) aborts the VM when the method is compiled |
| C102 | `lcmp` not followed by a branch calls `compareLongs`, which compares unsigned: -1L compares greater than 1L |
| C106 | Maps of calls can contain slots that hold a number. (1) `src/compile.cpp` 6899-6901: a lowered entry of rootTable sets dirtyRoots only if the IpEvent ends a context or the log; the one that ends the code outside the handlers is followed by PushExceptionHandlerEvent once a handler has been compiled, so the lowering is not noticed. `Object o = ...; for (;;) { f(); try { g(); } catch (E e) { int i = 0; } h(); }` with i in the slot of o: after an exception the collector follows i at f(). (2) 7417-7421: a range is cut off at its handler, and calls behind it are ignored. (3) calls that are added to a range by a handler compiled later are not taken into account unless something else is dirty |
| C108 | `src/compile.cpp` 3148-3152: `map->length() * size` is cut to 32 bits on the way into ceilingDivide. With (n + ns/32) s of 2^32 or more, for s slots and n calls, the size of the index comes out wrong, the binary search runs over the bits of the maps, and the collection aborts or reads a wrong map. s = 131070 and n = 8, or s = 10000 and n = 1400, are enough; the check for it is an assert that is compiled out |
| C111 | (1) `src/compile.cpp` 9063-9075: popLocalFrame disposes of references until the head is the one saved by pushLocalFrame. If that one was deleted inside the frame (allowed by JNI), it is never met: all references of the thread are disposed of and the null head is dereferenced. If its memory was used for a new reference meanwhile, the loop stops too early. (2) 7598-7640 and 9046-9051: arguments are passed as addresses of stack slots, which DeleteLocalRef treats as a Reference: it decrements the word 24 bytes above the slot |
| C112 | (1) `src/compile.cpp` 9027-9033: a reference obtained in an inner frame to an object already referenced in an outer one raises the count of the outer cell; popLocalFrame does not lower it, so the object stays referenced after DeleteLocalRef. (2) 7704-7708: a pending exception is thrown before the loop 7747-7749 that disposes of the references of the native method; they stay until an outer native method returns |
| C114 | `classpath/java/util/ArrayDeque.java` (1) 336-341: removing an element from the middle copies one element too many, and throws if the elements reach the end of the array (16 elements, remove the second). (2) 342-349: when the elements wrap around, the third copy goes to `size - removalIndex` instead of `dataArray.length - startIndex - 1`: it throws, or overwrites other elements (a full deque starting at 13: removing the third element loses the second as well). (3) 287-290: the backward index is negative when the elements wrap around, so descendingIterator throws. (4) 49-51: a capacity of 0 is doubled to 0, so `new ArrayDeque(0)` and `new ArrayDeque(emptyCollection)` throw on the first add |
| C116 | `src/avian/classpath-common.h` 61-66: PrimitiveFlag is set on the classes int, byte, ... only (`src/machine.cpp` 3326-3334), not on int[], byte[], ..., so every two arrays are compatible. 89-95 copies `length` times the element size of the source: `System.arraycopy(new int[4], 0, new byte[4], 0, 4)` overwrites 12 bytes after the byte[]. 84-85: `srcOffset + length > srcOffset` is meant to detect overflow but is undefined in that case; compilers remove it |
| C117 | same lines: a long[] is copied to an Object[], which makes references out of numbers; the elements of an Object[] are copied to an Integer[] without a check (Java throws ArrayStoreException); 109-111: a length of 0 is accepted with any offsets |
| C119 | `classpath/java/util/BitSet.java` (1) 189-203: after a zero word the position is advanced twice, so the next word is skipped: with only bit 64 set nextSetBit(0) is -1 and cardinality() is 0. (2) nextClearBit skips zero words, and gives -1 for the empty set. (3) 35-38: the mask of an empty range is all ones (a shift by 64 is a shift by 0): set(5, 5) sets bits 5 to 63. (4) 146-152: clear of a range beyond the array throws. (5) 163-171: intersects goes to the larger length and throws. (6) 173-175: length() is the size in bits. (7) 62-86: or, xor and andNot enlarge to one word more than the larger set, so each call makes the set grow |
| C122 | `classpath/java/util/concurrent/FutureTask.java` (1) 105-111: cancel(true) interrupts the running thread before it sets Canceled; that thread may call notifyAll (75) in between, when isDone() is still false, and nobody notifies later: get() waits forever. (2) 47-48, 103-104: cancel(true) between the two finds no thread: it interrupts nobody, returns false, and yet sets Canceled. (3) In that case, if the callable ends before Canceled is set, run() sleeps forever (68). (4) 159: the time is tested before the state, so get(0, unit) of a finished task throws TimeoutException |
| C125 | `classpath/avian/PersistentSet.java` 448-450, 469-471: the paths of first() and last() are marked as fresh, so remove() of an iterator after its first next() throws IllegalStateException (548), for every TreeSet and TreeMap view |
| C126 | (1) `classpath/java/util/TreeMap.java` 191-193: keySet().add(k) answers true if the map has k, whose value it replaces by null, and false if it was added. (2) 53-61: firstEntry and lastEntry of an empty map throw NoSuchElementException instead of answering null. (3) `classpath/avian/PersistentSet.java` 183-195: remove(value) of the only element throws IllegalArgumentException, since the node found is a copy of the root |
| C128 | `classpath/java/util/concurrent/ConcurrentHashMap.java` (1) 215-219: a key whose hash code is that of another key replaces that key's cells: the other mapping is lost, yet size() counts it. (2) 367-369: key - n.key overflows for hash codes 2^31 or more apart, so the order of the tree is cyclic and mappings get lost when it is rebalanced. (3) 309-316, 376-379: keySet().contains, keySet().remove, entrySet().contains and entrySet().remove of an absent key throw NullPointerException |
| C130 | `classpath/java/util/LinkedList.java` (1) 140-148: add(index, e) with index > 0 neither counts the element nor sets the prev of the cell behind it, and add(size, e) throws. (2) 377-398: removeFirstOccurrence and removeLastOccurrence do not remove an element at index 0. (3) 282-290: pollLast of an empty list throws. (4) 261-301, 367-374: removeFirst, remove, pop and removeLast of a null element remove it and throw; element throws |
| C132 | `classpath/java/util/concurrent/LinkedBlockingQueue.java` (1) 136-150: addAll does not notify, so a thread in take or poll sleeps on though there are elements. (2) 278-282: clear does not notify, so a thread in put or offer sleeps on though there is room. (3) 99-133, 164-169: null elements are accepted; taking one removes it, throws NoSuchElementException and notifies nobody |
| C130 | `classpath/java/util/AbstractCollection.java` 78-91: removeAll removes only one occurrence of each element (LinkedList and all other lists) |
| C134 | `src/codegen/compiler.cpp` 1950-1967, with `src/compile.cpp` Untable0: in `0: goto 4; 3: return; 4: tableswitch default 3` the second part of the tableswitch is made directly behind the return, its next instruction, so both are one block; that block, found as the one of the next instruction of the goto, is put, and the first part of the tableswitch never is: the goto and the method's frame tables refer to a block without an address |
| C136 | `src/compile.cpp` 6585-6602: if the instruction behind a region is not compiled, resolveIpBackwards gives the last compiled instruction in the region, and the region then ends before it: in `0: aload_0; 1: athrow; 2: nop; 3: areturn` with handler 3 for 0 to 2 the exception is not caught |
| C137 | `src/compile.cpp` 6757-6761: an entry is looked for in the bytes before the last one in front of the next entry, so an entry for a single instruction of one byte is dropped, and an ArithmeticException of an idiv in a line of its own has the line before it |
| C139 | `classpath/java/util/Arrays.java` (1) 152-155 and `Collections.java` 48-52: sort is not stable with more than sixteen elements. (2) 702: binarySearch(a, key) passes a.length - 1 as the end that is excluded, so the last element is never found, and an array without elements throws. (3) with Integer.compareTo, which overflows (C91), [2147483647, -1] counts as sorted. (4) 231-236: siftDown compares children without the offset; the result of sort does not depend on it |
| C141 | `classpath/java/util/ArrayList.java` (1) 85-91: add(index, e) beyond the size does not throw but lengthens the list, and elements removed earlier reappear in between; add(-1, e) throws after the size was raised. (2) `avian/Data.java` 31-48: toArray throws ArrayStoreException for a list with a null element. (3) 98-101: list.addAll(list) goes on until memory is exhausted. (4) read, not modelled: 191-197: an ArrayList without an array cannot be serialized (NullPointerException); addAll of an empty collection answers true |
| C143 | `src/machine.cpp` (1) 363-378: findInInterfaces goes over the interface table in steps of two, but the table of an interface has single entries: a field of every second superinterface is not found through an interface (NoSuchFieldError). (2) the table is in hash order and holds all interfaces, so a hidden field may be found. (3) 5392-5399: superclasses are searched before the interfaces of the class (JVMS 5.4.3.2: after). (4) 5146-5154: JNI's GetFieldID and GetStaticFieldID search the interfaces before the class itself |
| C145 | `src/avian/machine.h` 2695-2717: invokeinterface of a method of Object (legal by JVMS 5.4.3.4; findInHierarchyOrNull finds it) looks for Object among the interfaces of the receiver and aborts the virtual machine |
| C147 | `src/machine.cpp` 3037-3051: Class.forName("[Q"), "[" or "[[" aborts the process instead of throwing ClassNotFoundException. 3018-3035: "[LA" and "[LA;;" are accepted as further array classes of A, different from "[LA;". Array classes of more than 255 dimensions are made, and with 256 the count of dimensions, a uint8_t that tells arrays from other objects, is 0. (The count of [[I is 1 and that of [[LA; is 2: 3048 decrements it for primitives only.) |
| C148 | (1) `ClassLoader.java` 128-134: findLoadedClass answers null for every loader but the built-in ones, and `src/machine.cpp` 5933-5962 defines a class again without complaint, so every loadClass of such a loader makes a new class; code linked before and after uses different ones. (2) `Classes.java` 289-303: forName asks loadClass for array names too, which a Java loader cannot answer for arrays of its own classes. (3) `src/machine.cpp` 3106-3110: array names are looked up in the boot loader first, so a loader with a class of its own under a name the boot loader has gets arrays of the other class. (4) `ClassLoader.java` 107: defineClass refuses offset > length and lets offset + length overflow. |
| C150 | `src/machine.cpp` 5987-5989: counts[index + 1] * arrayElementSize is computed in 32 bits and so is the size in bytes of the array: new int[1][1 << 30] makes an array of that length whose memory is its header of 16 bytes, so that ordinary index checks let a program read and write foreign memory. |
| C152 | `classpath/java/lang/StringBuilder.java` 197-229: delete asks substring of every cell behind the removed range for a negative start, so removing anything before the last cell throws StringIndexOutOfBoundsException (and setCharAt, deleteCharAt and replace with it); when the range contains a whole cell, p is never set, `chain = c.next` drops the cells behind it and the text lost is replaced by zero characters in front. |
| C152 | `classpath/java/lang/StringBuilder.java` 292-322: setLength beyond the length only changes the length, so the zero characters appear in front of the text: "abc" becomes "\\0\\0abc". insert of null before the end throws NullPointerException with its cell already in the chain (139-172); delete with an end beyond the length throws instead of cutting it (190-192). |
| C154 | `classpath/java/lang/String.java` 403-409: startsWith(s, start) takes substring(start, s.length) instead of substring(start, start + s.length): for every start above zero where s is found it answers false or throws. |
| C154 | `classpath/java/lang/String.java` 503-506: charAt admits index == length: of a substring it returns the character behind it, of a whole string it throws ArrayIndexOutOfBoundsException. |
| C154 | `classpath/java/lang/String.java` 359-371: replace(char, char) on a string of bytes truncates both characters to bytes: "abc".replace('\\u0161', 'x') is "xbc", "abc".replace('a', '\\u4e2d') is "-bc", and a new character from 128 to 255 makes an array that is decoded as UTF-8. |
| C154 | `classpath/java/lang/String.java`: indexOf(c, negative) throws; indexOf("", n) returns n whatever the length; trim leaves control characters other than tab, CR and LF; regionMatches throws for regions out of the text instead of returning false. |
| C156 | `src/machine.cpp` 923-937, 876-1103: an entry that refers to itself, directly or not (a class whose name index is its own), recurses until the stack is used up: the slot is filled only after the call. |
| C156 | `src/machine.cpp` 886, 925: indexes are not checked: index 0 becomes 2^32-1, and indexes beyond the pool or at the second half of a long read memory outside the table or not initialised; entries of another kind are cast unchecked (a class named by an integer uses the integer as a pointer). |
| C156 | `src/machine.cpp` 1109-1110: a constant_pool_count of 0 makes the count 2^32-1 and the object's length wrap to 0; its mask word is then written behind the object. |
| C156 | `src/machine.cpp` 1185-1187, 4752: unknown tags (CONSTANT_Dynamic, Module, Package of newer class files) and files that end early abort the process instead of throwing ClassFormatError. |
| C161 | `DataInputStream.readFloat` and `readDouble` (`DataInputStream.java` 75-81) return `Float.floatToIntBits(readInt())` and `Double.doubleToLongBits(readLong())`: the bits are taken as a number, converted, and its bits converted once more. 1.0f is read back as 1316880384.0. |
| C161 | `BufferedReader.readLine` (`BufferedReader.java` 45-51) looks for the `\n` after a `\r` only inside the buffer (32 characters by default, or what one read gave): otherwise the next call gives an extra empty line. |
| C161 | `BufferedInputStream.available` (`BufferedInputStream.java` 80-82) gives `in.available() - 1` after a read has met the end, since `limit` is then -1; `read(b, off, 0)` there gives -1 instead of 0. |
| C161 | `BufferedOutputStream` of size 0 (`BufferedOutputStream.java` 34-40): `write(int)` throws ArrayIndexOutOfBoundsException. |
| C164 | `new String(byte[])` with bytes that end inside a multibyte character (`String.java` 134-141): decode gives null, and the message of the RuntimeException is made by `new String(data, offset, length, false)`, which copies because `Utf8.test` is true, decodes, gets null and so on: StackOverflowError. |
| C164 | `Utf8.encode` writes U+0000 as two zero bytes and `Utf8.decode` skips the byte after a zero byte (`Utf8.java` 29-31, 53-59), and `trim` leaves byte arrays at full length: `"A\0"` comes back as `"A\0\0"`, the bytes `A 0 B` give `"A\0\0"`, the bytes `A 0` are refused. |
| C164 | `Utf8.decode` skips bytes 80-BF and F0-FF (71-82) silently; with no other long character the array is not shortened, so the four bytes of U+1F600 give four U+0000. |
| C164 | `new String(bytes, "ISO-8859-1")` (`String.java` 61-69) checks the name and decodes UTF-8; `getBytes("ISO-8859-1")` encodes Latin-1. |
| C166 | `ByteBuffer.checkGet` (`ByteBuffer.java` 321-327) accepts negative indices: `get(-1)` reads the byte before the window, and outside any memory for a direct buffer. |
| C166 | `ByteBuffer.checkPut` (309-319): `position+amount` wraps, so `put(Integer.MAX_VALUE, b)` on a direct buffer writes at address + 2^31 - 1. |
| C166 | `Buffer.position(int)` and `limit(int)` (`Buffer.java` 35-43) check nothing; a limit beyond the capacity lets put write past the window. |
| C166 | `DirectByteBuffer.get(byte[],int,int)` (82-93) does not advance the position. |
| C166 | `slice()` of a writable buffer is read-only (`ArrayByteBuffer.java` 42-45, `DirectByteBuffer.java` 41-43). |
| C166 | `compact()` of a direct buffer copies overlapping ranges with memcpy (`DirectByteBuffer.java` 55, `src/builtin.cpp` 780-803). |
| C168 | `LinkedHashMap.remove` (64-80) leaves the key in `lookup`, and `clear` (82-85) all keys. Removing such a key again relinks old neighbours: put 1, 2, 3, remove 2, 3, 2 brings 3 back with a null entry; put 1, 2, clear, put 3, remove 1 loses 3 from iteration; put 1, 2, clear, remove 1, put 4 throws NullPointerException. |
| C171 | `StringTokenizer.nextToken` with includeDelimiters (`StringTokenizer.java` 78-93) gives a delimiter without advancing: `while (t.hasMoreTokens()) t.nextToken()` never ends. |
| C171 | `StringTokenizer.hasMoreTokens` (64-76) moves the position past delimiters, so a following `nextToken(other)` misses them. |
| C173 | `Collections.shuffle` (`Collections.java` 19-32) swaps every index with any index instead of one not yet settled: the orders are not equally likely (for three elements 4 to 5 of 27). |
| C176 | `Properties.store` (`Properties.java` 28-39) writes keys and values without escapes: a key with `=` or a blank, a value with a newline, a backslash or a blank in front comes back changed from `load`, and a value with `\u` can make `load` throw. |
| C177 | `Properties.load` (`Properties.java` 120-127, 151-154) appends the newline after a backslash instead of joining the lines, and skips a line beginning with `\#` or `\!` as a comment although it is escaped. |
| C179 | `ZipFile.Window.seek` (`ZipFile.java` 261-270) sets `start` and `length` before `readFully`: when that throws, the next `seek` in the same range returns without reading and shows the bytes of the range before. |
| C72 | a jar whose manifest Class-Path names itself makes the class path expansion recurse for ever |

Observed while reading, outside any theorem: `enter(ExitState)` from the active state would not notify a
thread waiting to become exclusive; the only caller (turnOffTheLights, machine.cpp:184) calls it from the
exclusive state, which is what `Enter_Model` allows.
