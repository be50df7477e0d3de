{"id": "C01", "title": "VM hash map behaves as a finite map", "statement": "After any sequence of insertions (raw insertion of an absent key, insert-or-replace, insert-if-absent) and removals on the VM's internal hash map (strong keys), looking a key up returns the value most recently stored for an equal key that has not been removed since, a removal returns that value (or null), and operations on one key never change what is found for another.", "quantifier": "all hash functions and key equalities consistent with each other, all keys/values, all finite operation histories (including every growth and shrink of the bucket array)", "why_tests_cant": "the bucket array is resized and chains relinked at data-dependent moments; tests only sample histories, collisions and sizes", "anchors": ["src/util.cpp: hashMapFindNode, hashMapFind, hashMapResize, hashMapInsert, hashMapRemoveNode, hashMapRemove"]}
{"id": "C02", "title": "Hash map bookkeeping", "statement": "The element count kept by the (strong) hash map is always the number of stored entries; for strong and weak maps the bucket array length is always 0 or a power of two, every entry is in the bucket its hash selects, and no operation indexes outside the bucket array.", "quantifier": "all operation histories", "why_tests_cant": "count drift or a non power-of-two table only shows after particular grow/shrink sequences", "anchors": ["src/util.cpp: hashMapResize, hashMapInsert, hashMapRemove"]}
{"id": "C03", "title": "Weak hash map never resurrects dead keys and never loses live ones", "statement": "In the weak-key variant, a lookup returns the value stored for a key exactly while that key is alive; entries whose key has been collected are never returned, whatever interleaving of collections, insertions, removals and resizes occurs.", "quantifier": "all interleavings of key deaths with map operations", "why_tests_cant": "depends on GC timing relative to resizes", "anchors": ["src/util.cpp: hashMapResize, hashMapRemove", "src/avian/util.h: HashMap"]}
{"id": "C04", "title": "Persistent tree lookup/insert is a finite map", "statement": "Inserting a fresh key into the persistent balanced tree yields a tree in which that key maps to the new value and every other key maps to what it did before.", "quantifier": "all trees reachable by insertion, all keys and comparison orders", "why_tests_cant": "rotations depend on the insertion order; exhaustive testing is impossible", "anchors": ["src/util.cpp: treeFind, treeAdd, leftRotate, rightRotate, treeInsert, treeQuery"]}
{"id": "C05", "title": "Persistent tree insert does not disturb older versions", "statement": "Readers that hold an older root of the persistent tree see exactly the same contents after any number of later insertions.", "quantifier": "all insertion histories and all earlier versions", "why_tests_cant": "aliasing bug would only be visible to a concurrent reader holding an old root", "anchors": ["src/util.cpp: treeFind (path cloning), treeAdd"]}
{"id": "C06", "title": "Persistent tree stays balanced", "statement": "Every tree built by insertion keeps search depth logarithmic (at most twice log2(n+1)), so the hard-coded depth-100 abort can never fire for any number of entries addressable in memory.", "quantifier": "all insertion histories", "why_tests_cant": "needs astronomically many keys to test", "anchors": ["src/util.cpp: treeFind (count > 100 abort), treeAdd"]}
{"id": "C07", "title": "Bit-field access", "statement": "Writing a value into a bit range of a word bitmap and reading the same range gives the value back, and no bit outside the range changes.", "quantifier": "all map contents, offsets, field widths and values", "why_tests_cant": "range straddles words in many ways", "anchors": ["src/avian/common.h: markBit, clearBit, getBit, setBits, getBits, clearBits"]}
{"id": "C08", "title": "Modified UTF-8 decode/encode", "statement": "Decoding the UTF-8 text the VM produces for a string yields the same sequence of UTF-16 units, for every string without U+0000, and the length reported beforehand is exactly the number of bytes written.", "quantifier": "all UTF-16 strings (including surrogates and both internal representations)", "why_tests_cant": "2^16 symbols and all lengths", "anchors": ["src/machine.cpp: stringUTFLength, stringUTFChars, parseUtf8, parseUtf8NonAscii"]}
{"id": "C09", "title": "U+0000 in UTF-8 conversion", "statement": "A string containing U+0000 converted to modified UTF-8 and back is unchanged (JNI requires U+0000 to be encoded as C0 80 so that it cannot truncate the C string).", "quantifier": "all strings containing U+0000", "why_tests_cant": "corner of the input space; behaviour depends on the internal representation", "anchors": ["src/machine.cpp: stringUTFLength, stringUTFChars"]}
{"id": "C10", "title": "Class-file stream is memory safe", "statement": "No sequence of reads and skips on the class-file input stream touches a byte outside the supplied buffer; multi-byte reads that fit return the big-endian value and advance by exactly their width, and reads that do not fit report an error.", "quantifier": "all buffers, positions and read sequences, including sizes near the integer limits", "why_tests_cant": "attacker-controlled lengths; overflow only at the extremes", "anchors": ["include/avian/util/stream.h: AbstractStream::skip, read, read1, read2, read4, read8"]}
{"id": "C11", "title": "Field layout", "statement": "The instance field offsets computed at class load are aligned to the field size, lie inside the declared instance size, start after the superclass part, and no two fields overlap.", "quantifier": "all class files: every sequence of field descriptors and every superclass size", "why_tests_cant": "combinatorial in field order", "anchors": ["src/machine.cpp: parseFieldTable", "src/avian/machine.h: fieldSize"]}
{"id": "C12", "title": "Object masks", "statement": "The pointer mask computed for a class marks exactly the word offsets that hold references (inherited and own), so the collector visits every reference field and no primitive field.", "quantifier": "all field sequences and inherited masks", "why_tests_cant": "a wrong bit shows up only as a heap corruption at some later collection", "anchors": ["src/machine.cpp: parseFieldTable", "src/avian/machine.h: singletonMarkObject"]}
{"id": "C13", "title": "Exception and line tables packing", "statement": "The exception handler and line number entries packed into 64-bit words unpack to the same start, end, handler, catch-type, pc and line.", "quantifier": "all 16-bit (32-bit) component values", "why_tests_cant": "2^64 combinations", "anchors": ["src/avian/machine.h: exceptionHandler*, lineNumber*"]}
{"id": "C14", "title": "Line number lookup", "statement": "For a line table in ascending order of start pcs, the line reported for a return address is that of the last table entry at or before the calling instruction (the first entry if there is none), and the lookup ends within one iteration per entry, provided the pc of the instruction itself does not occur twice.", "quantifier": "all ascending line tables of any length, all return addresses", "why_tests_cant": "binary search over arbitrary tables", "anchors": ["src/process.cpp: findLineNumber", "src/avian/machine.h: lineNumberIp, lineNumberLine"]}
{"id": "C15", "title": "Method descriptor scanning", "statement": "For every well-formed method descriptor the computed parameter count, parameter footprint (two slots for long and double, plus the receiver) and return code are those of the descriptor grammar, and scanning never runs past its end.", "quantifier": "all method descriptors of any length and nesting", "why_tests_cant": "infinite grammar", "anchors": ["src/avian/machine.h: MethodSpecIterator, scanMethodSpec", "src/machine.cpp: parameterFootprint"]}
{"id": "C16", "title": "Constant-pool object mask", "statement": "The mask stored inside a constant pool/static table is sized consistently by writer and readers for every entry count; marking an entry as an object affects exactly that entry and never overlaps the value area.", "quantifier": "all entry counts, all marking sequences", "why_tests_cant": "off-by-one at multiples of 64/65 only", "anchors": ["src/avian/machine.h: singletonMaskSize, singletonCount, singletonMarkObject, singletonIsObject, poolMaskSize, poolSize"]}
{"id": "C17", "title": "Collector work bitset", "statement": "The bitset the collector keeps inside a dead object while scanning its copy yields every offset that was set, each exactly once, in increasing order, and then reports completion.", "quantifier": "all sets of offsets and object sizes", "why_tests_cant": "depends on object size and bit positions; the encoding changes past 63 pending words", "anchors": ["src/heap/heap.cpp: bitsetInit, bitsetSet, bitsetClear, bitsetHasMore, bitsetNext"]}
{"id": "C18", "title": "Collection preserves the reachable object graph", "statement": "After a full collection the objects reachable from the roots form a graph isomorphic to the one before it: same classes, same primitive contents, same sharing and cycles; unreachable objects do not affect the result.", "quantifier": "all heaps (any number of objects, any shape including cycles and self references), all root sets", "why_tests_cant": "heap shapes are unbounded; the traversal reuses memory of dead objects as its own stack", "anchors": ["src/heap/heap.cpp: collect, copy, update, update2, update3"]}
{"id": "C19", "title": "Remembered set / write barrier", "statement": "A minor collection never loses an object that is reachable only through a pointer stored in an old object, for every sequence of pointer stores performed through the write barrier between collections.", "quantifier": "all mutator histories and generation ages", "why_tests_cant": "the store and the collection must hit the same old object; tests rarely do", "anchors": ["src/heap/heap.cpp: mark, updateHeapMap, collect2, visitDirtyFixies", "src/avian/machine.h: setField"]}
{"id": "C20", "title": "Identity hash code is stable", "statement": "The identity hash code of an object never changes during its lifetime, whenever it is first requested and however often the collector moves the object.", "quantifier": "all interleavings of hash requests and collections", "why_tests_cant": "address-derived; only changes if a collection happens at the wrong time", "anchors": ["src/avian/machine.h: objectHash, takeHash, baseSize", "src/machine.cpp: HeapClient::copiedSizeInWords, copy"]}
{"id": "C21", "title": "Cloned objects are independent", "statement": "A clone has the same class and contents as the original and its own fresh identity (its identity hash does not depend on the original's hash state and it carries none of the original's header marks).", "quantifier": "all objects, arrays and header states", "why_tests_cant": "only visible when the original's hash was taken or the object was moved before the clone", "anchors": ["src/machine.cpp: clone"]}
{"id": "C22", "title": "Heap footprint accounting", "statement": "While the live allocations total less than 4 GB, the number of bytes the heap believes are in use always equals the sum of their sizes, freeing one never fails, and an allocation that would exceed the configured limit is refused without changing the count.", "quantifier": "all histories of allocate/free", "why_tests_cant": "drift accumulates over long runs", "anchors": ["src/heap/heap.cpp: tryAllocate, allocate, free, limitExceeded"]}
{"id": "C23", "title": "JNI global references", "statement": "A JNI global or weak reference stays valid and denotes the same object from creation until the matching delete, and deleting one reference leaves all other references untouched.", "quantifier": "all interleavings of create/delete", "why_tests_cant": "intrusive doubly linked list with back-pointers", "anchors": ["src/avian/machine.h: Reference, dispose(Thread*, Reference*)", "src/jnienv.cpp: newGlobalRef, deleteGlobalRef"]}
{"id": "C24", "title": "Java monitors give mutual exclusion", "statement": "At most one thread owns an object's monitor at any time, and re-entrant acquisitions must be matched by the same number of releases before another thread can enter (releasing a monitor that is not owned is C70).", "quantifier": "all interleavings of any number of threads", "why_tests_cant": "schedules cannot be enumerated by tests", "anchors": ["src/avian/machine.h: monitorTryAcquire, monitorAcquire, monitorRelease, monitorAtomicAppendAcquire, monitorAtomicPollAcquire"]}
{"id": "C25", "title": "Monitor hand-over loses no waiter", "statement": "A thread queued on a contended monitor is never lost: whenever the monitor is released and threads are queued, the head of the queue is woken.", "quantifier": "all interleavings of acquires and releases", "why_tests_cant": "lost wake-ups need a precise race", "anchors": ["src/avian/machine.h: monitorRelease, monitorAtomicAppendAcquire, monitorAtomicPollAcquire"]}
{"id": "C26", "title": "Object.wait/notify", "statement": "notify wakes at most one waiting thread (the longest waiting), notifyAll wakes all of them, a woken thread owns the monitor again with its former recursion depth, and no other thread leaves the wait set.", "quantifier": "all sequences of wait/notify/notifyAll/timeouts", "why_tests_cant": "timing dependent", "anchors": ["src/avian/machine.h: monitorWait, monitorAppendWait, monitorRemoveWait, monitorNotify, monitorNotifyAll"]}
{"id": "C27", "title": "System monitor wait queue", "statement": "The native monitor keeps its wait list consistent: a thread is in it exactly while it waits un-notified, in FIFO order, and mutual exclusion and recursion depth are restored after a wait.", "quantifier": "all interleavings of wait, timeout, interrupt, notify, notifyAll", "why_tests_cant": "race between a timeout and a notification", "anchors": ["src/system/posix.cpp: Monitor::wait, append, remove, notify, notifyAll"]}
{"id": "C28", "title": "Static initialisers run at most once", "statement": "For every class the static initialiser is started by at most one thread and at most once, other threads block until it is finished, and recursive requests by the initialising thread return immediately.", "quantifier": "all interleavings of any number of threads", "why_tests_cant": "requires a race on first use", "anchors": ["src/machine.cpp: classNeedsInit, preInitClass, postInitClass, initClass"]}
{"id": "C29", "title": "Failed class initialisation releases waiters", "statement": "When a static initialiser throws, every thread waiting for that class is eventually woken and gets an error.", "quantifier": "all interleavings in which the initialiser fails while others wait", "why_tests_cant": "needs failure plus contention", "anchors": ["src/machine.cpp: preInitClass, postInitClass"]}
{"id": "C30", "title": "Exclusive (stop-the-world) state", "statement": "When a thread has entered the exclusive state no other thread is active; the active/live counters equal the number of threads in those states; a thread cannot become active while another is exclusive.", "quantifier": "all interleavings of any number of threads performing state transitions", "why_tests_cant": "needs schedules tests cannot force", "anchors": ["src/machine.cpp: enter"]}
{"id": "C31", "title": "Virtual dispatch", "statement": "Invoking a virtual method on an object runs the implementation declared by the most derived superclass of the object's class that overrides it with the same name and descriptor; table indices of inherited methods never change in subclasses.", "quantifier": "all single-inheritance class hierarchies and method tables", "why_tests_cant": "unbounded hierarchies", "anchors": ["src/machine.cpp: parseMethodTable", "src/avian/machine.h: findVirtualMethod"]}
{"id": "C32", "title": "Assignability", "statement": "isAssignableFrom is exactly the Java subtype relation on loaded classes: reflexive, transitive, through superclasses, implemented interfaces and array covariance.", "quantifier": "all class hierarchies and array nestings", "why_tests_cant": "unbounded hierarchies", "anchors": ["src/machine.cpp: isAssignableFrom, instanceOf"]}
{"id": "C33", "title": "Jar index lookup", "statement": "Looking a name up in a jar finds the entry with exactly that name whenever the central directory has one, the last one listed winning, however many entries there are, and finds nothing otherwise.", "quantifier": "all central directories and names", "why_tests_cant": "rehash at data-dependent sizes; collisions", "anchors": ["src/finder.cpp: JarIndex::add, findNode, open", "include/avian/util/hash.h"]}
{"id": "C34", "title": "Jar lookup of non-ASCII names", "statement": "The lookup guarantee also holds for entry names containing bytes >= 0x80.", "quantifier": "all names over bytes", "why_tests_cant": "only appears with many entries and non-ASCII names", "anchors": ["include/avian/util/hash.h: hash(const char*)", "src/finder.cpp: JarIndex::findNode"]}
{"id": "C35", "title": "Class path splitting", "statement": "Splitting a path at its separator yields exactly the non-empty segments in order, and the finder consults them in that order (first element that has the name wins).", "quantifier": "all path strings", "why_tests_cant": "unbounded strings", "anchors": ["include/avian/util/tokenizer.h", "src/finder.cpp: parsePath, MyFinder::find"]}
{"id": "C36", "title": "Arena allocator", "statement": "Blocks handed out by the arena allocator never overlap, are word aligned, lie inside one segment; peek/pop of the most recent bytes are exact inverses of allocation.", "quantifier": "all allocation/pop histories", "why_tests_cant": "layout depends on sizes and growth", "anchors": ["src/avian/zone.h: Zone"]}
{"id": "C37", "title": "Byte vector", "statement": "Data appended to the code vector is read back unchanged at the same offset after any later appends, and pop returns the most recently appended bytes.", "quantifier": "all operation histories", "why_tests_cant": "reallocation moves data", "anchors": ["src/avian/alloc-vector.h: Vector"]}
{"id": "C38", "title": "Interpreter integer arithmetic", "statement": "Every int/long arithmetic, shift, conversion and comparison instruction produces the result the JVM specification defines (two's complement wrap, masked shift counts, truncating division), with an ArithmeticException exactly for division by zero (the overflowing quotient MIN / -1 is C58).", "quantifier": "all 32/64-bit operands", "why_tests_cant": "2^64..2^128 operand pairs; corner cases like MIN/-1", "anchors": ["src/interpret.cpp: interpret3"]}
{"id": "C39", "title": "Interpreter floating comparison", "statement": "fcmpg/fcmpl/dcmpg/dcmpl push exactly one int, -1, 0 or 1, as two ordered operands compare (zeros of either sign equal, infinities at the ends; NaN is C59).", "quantifier": "all ordered operand pairs", "why_tests_cant": "2^64..2^128 operand pairs", "anchors": ["src/interpret.cpp: interpret3 (fcmpg, fcmpl, dcmpg, dcmpl)"]}
{"id": "C40", "title": "Interpreter stack manipulation", "statement": "dup, dup_x1, dup_x2, dup2, dup2_x1, dup2_x2, swap, pop, pop2 permute the operand stack as the specification says and leave everything below untouched.", "quantifier": "all stack contents", "why_tests_cant": "aliasing of overlapping copies", "anchors": ["src/interpret.cpp: interpret3"]}
{"id": "C41", "title": "Interpreter field access", "statement": "A value stored with putfield/putstatic is the value later loaded by getfield/getstatic, for every field type, truncated as the type requires and leaving all other fields untouched (boolean values other than 0 and 1 are C61, char values of 0x8000 and more are C62).", "quantifier": "all field types, values, layouts", "why_tests_cant": "sign/zero extension corner cases", "anchors": ["src/interpret.cpp: pushField, putfield, putstatic"]}
{"id": "C42", "title": "Interpreter switches", "statement": "tableswitch and lookupswitch jump to the target of the matching key, or to the default when there is none.", "quantifier": "all switch tables (sorted keys), all keys and alignments", "why_tests_cant": "unbounded tables, extreme keys", "anchors": ["src/interpret.cpp: tableswitch, lookupswitch"]}
{"id": "C43", "title": "Exception dispatch", "statement": "A thrown exception is delivered to the first handler in table order whose range covers the throwing instruction and whose type matches, in the innermost frame having one; frames above it are unwound and their monitors released (synchronized methods that overwrite their receiver are C65).", "quantifier": "all frame stacks and handler tables", "why_tests_cant": "unbounded call stacks", "anchors": ["src/interpret.cpp: findExceptionHandler, throw_"]}
{"id": "C44", "title": "Call frames", "statement": "Returning from a call restores the caller's locals, operand stack below the arguments, code and instruction pointer exactly.", "quantifier": "all nestings of calls", "why_tests_cant": "unbounded call depth", "anchors": ["src/interpret.cpp: pushFrame, popFrame"]}
{"id": "C45", "title": "JNI native-method names", "statement": "The symbol name computed for a native method has exactly the length reserved for it, and two different methods never map to the same symbol.", "quantifier": "all class and method names, all descriptors", "why_tests_cant": "infinite name space", "anchors": ["src/process.cpp: mangledSize, mangle, jniNameLength, makeJNIName"]}
{"id": "C46", "title": "Thread tree maintenance", "statement": "Adding, removing and disposing threads keeps the thread tree consistent: every live thread remains reachable from the root and no link refers to a disposed thread.", "quantifier": "all histories of thread creation/exit", "why_tests_cant": "order of exit matters", "anchors": ["src/avian/machine.h: addThread, removeThread", "src/machine.cpp: Thread::dispose, killZombies"]}
{"id": "C47", "title": "Weak references and finalizers", "statement": "A weak reference is cleared exactly when its target becomes unreachable, is enqueued at most once, and an object with a finalizer is queued for finalization exactly once.", "quantifier": "all heaps, histories of collections", "why_tests_cant": "depends on GC generation timing", "anchors": ["src/machine.cpp: postVisit, finalizerTargetUnreachable, referenceTargetUnreachable"]}
{"id": "C48", "title": "Thread-local allocation", "statement": "Objects allocated from a thread's local buffer never overlap and lie inside the buffer; the flow of buffers between threads never hands one buffer to two threads.", "quantifier": "all allocation sequences", "why_tests_cant": "bump pointers and pool indices", "anchors": ["src/avian/machine.h: allocateSmall, allocate", "src/machine.cpp: allocate2, allocate3"]}
{"id": "C49", "title": "String equality and hashing agree", "statement": "Two equal strings (whatever their internal representation: byte or char array, any offset) have the same hash, so interning finds them.", "quantifier": "all strings and representations", "why_tests_cant": "representation mix is rare", "anchors": ["src/avian/machine.h: stringHash, stringEqual, stringCharAt", "include/avian/util/hash.h"]}
{"id": "C50", "title": "Command-line argument parser", "statement": "The parser accepts exactly the well-formed command lines and assigns to each option the value following it.", "quantifier": "all argument vectors and option tables", "why_tests_cant": "unbounded", "anchors": ["src/util/arg-parser.cpp: ArgParser::parse"]}
{"id": "C51", "title": "Table-size helpers", "statement": "Rounding a requested table size up to a power of two gives the least power of two not below the request, the logarithm and ceiling-division helpers are exact, and all of them terminate, for every unsigned argument.", "quantifier": "all 32-bit unsigned arguments", "why_tests_cant": "2^32 arguments; failure only at the extremes", "anchors": ["include/avian/util/math.h: nextPowerOfTwo, log, ceilingDivide, powerOfTwo"]}
{"id": "C52", "title": "Raw insertion of a present key", "statement": "After inserting a key that is already in the hash map, looking it up returns the newer value, whatever resizes happen.", "quantifier": "all histories with duplicate raw insertions", "why_tests_cant": "chain order depends on the number of resizes", "anchors": ["src/util.cpp: hashMapInsert, hashMapResize"]}
{"id": "C53", "title": "Weak map element count", "statement": "The element count of a weak-key map never drifts from the number of stored entries when entries of collected keys are dropped.", "quantifier": "all interleavings of deaths and resizes", "why_tests_cant": "drift accumulates only when collections coincide with resizes", "anchors": ["src/util.cpp: hashMapResize, hashMapRemove"]}
{"id": "C54", "title": "Line number lookup on irregular tables", "statement": "The lookup also terminates and finds the nearest preceding entry for the other line tables the class-file format allows: repeated start pcs and entries out of order.", "quantifier": "all line tables", "why_tests_cant": "needs specific irregular tables", "anchors": ["src/process.cpp: findLineNumber", "src/machine.cpp: parseCode"]}
{"id": "C55", "title": "JNI symbol names of JVM-legal class names", "statement": "Two different native methods never map to the same symbol, also when class names are legal only at the JVM level (segments starting with a digit).", "quantifier": "all JVM-legal names", "why_tests_cant": "infinite name space", "anchors": ["src/process.cpp: mangle, makeJNIName"]}
{"id": "C56", "title": "Malformed method descriptors", "statement": "A method descriptor that is not well formed is rejected; scanning it never reads past the end of the byte array.", "quantifier": "all byte strings used as descriptors", "why_tests_cant": "attacker-controlled class files", "anchors": ["src/avian/machine.h: MethodSpecIterator, scanMethodSpec", "src/machine.cpp: parseMethodTable"]}
{"id": "C57", "title": "JNI symbol names follow the specification", "statement": "The symbol looked up for a native method is the one the JNI specification prescribes for its class, name and (decorated form) parameter types.", "quantifier": "all names and descriptors", "why_tests_cant": "infinite name space", "anchors": ["src/process.cpp: mangle, makeJNIName"]}
{"id": "C58", "title": "Overflowing quotient", "statement": "Dividing the least int or long by -1 gives that least value back and the remainder 0, as the JVM specification says.", "quantifier": "both widths, quotient and remainder", "why_tests_cant": "one operand pair out of 2^64", "anchors": ["src/interpret.cpp: idiv, irem, ldiv, lrem"]}
{"id": "C59", "title": "NaN comparison", "statement": "fcmpg/fcmpl/dcmpg/dcmpl with a NaN operand push exactly one int.", "quantifier": "all operand pairs with a NaN", "why_tests_cant": "the surplus value is invisible unless something below it is used", "anchors": ["src/interpret.cpp: fcmpg, fcmpl, dcmpg, dcmpl"]}
{"id": "C60", "title": "Float to long saturation", "statement": "f2l of a float beyond the range of long gives the nearest long.", "quantifier": "all floats", "why_tests_cant": "needs magnitudes of 2^63 and more", "anchors": ["src/interpret.cpp: f2l"]}
{"id": "C61", "title": "Booleans keep one bit", "statement": "Storing an int in a boolean field or array component keeps its lowest bit only.", "quantifier": "all ints", "why_tests_cant": "javac never emits such a store", "anchors": ["src/interpret.cpp: putfield, putstatic, bastore"]}
{"id": "C62", "title": "Char fields are unsigned", "statement": "Reading a char field gives a value between 0 and 65535.", "quantifier": "all chars", "why_tests_cant": "only chars from 0x8000 show it", "anchors": ["src/interpret.cpp: pushField"]}
{"id": "C63", "title": "Array store check", "statement": "Storing a reference in an array whose component type it is not an instance of throws ArrayStoreException.", "quantifier": "all arrays and references", "why_tests_cant": "type-incorrect stores are rare", "anchors": ["src/interpret.cpp: aastore"]}
{"id": "C64", "title": "Wide forms", "statement": "wide fload, dload, fstore, dstore and wide astore (also of a return address) behave like their narrow forms with a 16-bit index.", "quantifier": "all methods with more than 256 local variables", "why_tests_cant": "such methods are rare", "anchors": ["src/interpret.cpp: wide"]}
{"id": "C65", "title": "The entered monitor is released", "statement": "A synchronized instance method releases the monitor it entered, even if it assigns to its local variable 0.", "quantifier": "all method bodies", "why_tests_cant": "javac never assigns to this", "anchors": ["src/interpret.cpp: popFrame"]}
{"id": "C66", "title": "Wrap-around without compiler support", "statement": "Integer arithmetic wraps whatever the C++ compiler makes of signed overflow (the build does not pass -fwrapv).", "quantifier": "all overflowing operations", "why_tests_cant": "depends on the compiler", "anchors": ["src/interpret.cpp: iadd, isub, imul, ineg, iinc, ishl and the long forms", "makefile: common-cflags"]}
{"id": "C67", "title": "An Error in a static initialiser counts as failure", "statement": "When a static initialiser ends with any throwable, an Error included, the class is unusable: later requests for it fail.", "quantifier": "all throwables and schedules", "why_tests_cant": "initialisers that throw Errors are rare in tests", "anchors": ["src/machine.cpp: postInitClass"]}
{"id": "C68", "title": "A notification is not spent on a thread that has given up", "statement": "When the native monitor's notify is called while some thread is still asleep in its wait list, a thread that was still waiting is woken, not one whose wait has already timed out.", "quantifier": "all interleavings of wait, timeout and notify", "why_tests_cant": "needs a timeout between two locks", "anchors": ["src/system/posix.cpp: Monitor::wait, notify"]}
{"id": "C69", "title": "A notification is not lost to an interrupt", "statement": "If notify is called while threads are in the wait set, at least one of them returns normally from wait or all of them throw InterruptedException (JLS 17.2.4).", "quantifier": "all interleavings of wait, notify and interrupt", "why_tests_cant": "needs an interrupt and a notification inside one wait", "anchors": ["src/avian/machine.h: monitorWait, monitorNotify"]}
{"id": "C70", "title": "Misuse of a monitor throws", "statement": "wait, notify, notifyAll and monitorexit by a thread that does not own the object's monitor throw IllegalMonitorStateException.", "quantifier": "all threads and monitor states", "why_tests_cant": "only ill-behaved bytecode does it", "anchors": ["src/avian/machine.h: release, wait, notify, notifyAll, monitorRelease"]}
{"id": "C71", "title": "Buffers stay inside their memory for every size", "statement": "Whatever size is requested (any size_t), the arena allocator and the byte vector return and write only memory that lies inside what they obtained, or refuse.", "quantifier": "all request sizes and histories", "why_tests_cant": "needs multi-gigabyte requests or a nearly empty vector", "anchors": ["src/avian/zone.h: Zone::allocate, tryEnsure", "src/avian/common.h: pad", "src/avian/alloc-vector.h: Vector::set2"]}
{"id": "C72", "title": "Class path expansion terminates", "statement": "Building a class path terminates for every set of jars, whatever their manifests name.", "quantifier": "all file systems and manifests, including jars that name themselves or each other", "why_tests_cant": "requires cyclic manifests", "anchors": ["src/finder.cpp: add, addJar, addTokens"]}
{"id": "C73", "title": "Initial values of static fields", "statement": "Right after a class is loaded, and before its static initialiser runs, each static field holds the constant its ConstantValue attribute names (truncated to the field's size), and zero or null without one.", "quantifier": "all class files", "why_tests_cant": "combinatorial in field order and sizes", "anchors": ["src/machine.cpp: parseFieldTable"]}
{"id": "C74", "title": "Field layout of very large classes", "statement": "The layout of C11 also holds for the largest classes the class-file format allows (65535 fields).", "quantifier": "all class files", "why_tests_cant": "such classes are rare", "anchors": ["src/machine.cpp: parseFieldTable", "src/avian/types.def: class fixedSize, field offset"]}
{"id": "C75", "title": "Default methods", "statement": "Calling an interface method that no superclass implements runs the default method of the most specific interface declaring it.", "quantifier": "all hierarchies of classes and interfaces", "why_tests_cant": "needs particular diamond hierarchies", "anchors": ["src/machine.cpp: addInterfaceMethods, parseMethodTable"]}
{"id": "C76", "title": "Package-private methods", "statement": "A class of another package declaring a method with the same name and descriptor does not override a package-private method.", "quantifier": "all hierarchies and packages", "why_tests_cant": "needs subclasses across packages", "anchors": ["src/avian/machine.h: methodVirtual", "src/machine.cpp: parseMethodTable"]}
{"id": "C77", "title": "Clones of instances", "statement": "A clone of an object that is not an array has the class and the field values of the original and a clean header of its own, whatever the header state of the original; the original and everything else in memory is unchanged. The same holds for arrays whose header carries no mark.", "quantifier": "all objects, header states and places for the clone", "why_tests_cant": "depends on whether the hash of the original was taken or the object moved", "anchors": ["src/machine.cpp: clone"]}
{"id": "C78", "title": "Strings with bytes above 127", "statement": "String equality and hash code also agree for strings made from C strings with bytes above 127.", "quantifier": "all byte strings", "why_tests_cant": "needs non-ASCII native strings compared with character strings, and a large intern table", "anchors": ["src/avian/machine.h: stringHash, stringCharAt, stringEqual", "src/machine.cpp: makeString, intern"]}
{"id": "C79", "title": "Array memory", "statement": "The memory behind a new array covers its header and every element of its length, for every length a program can ask for.", "quantifier": "all element types and int lengths", "why_tests_cant": "needs arrays of 4 GB", "anchors": ["src/tools/type-generator/main.cpp: writeOffset, writeConstructors", "src/interpret.cpp: newarray, anewarray", "src/avian/machine.h: allocate", "src/avian/common.h: pad"]}
{"id": "C80", "title": "Heap limit", "statement": "A request that would take the heap beyond its configured limit ends in OutOfMemoryError, not in memory beyond the limit.", "quantifier": "all limits, heap states and array lengths", "why_tests_cant": "needs requests close to 4 GB", "anchors": ["src/machine.cpp: allocate3, collect", "src/heap/heap.cpp: limitExceeded, fixedFootprint, allocateFixed"]}
{"id": "C81", "title": "Thread tree while the first thread lives", "statement": "As long as the first thread has not exited and every thread that was created could be started, all threads form one tree under the first thread: a walk visits every thread exactly once, no link refers to a disposed thread, the counters are exact, and a collection disposes of exactly the threads that have exited and are not protected.", "quantifier": "all histories of thread creation, exit, detach, protection and collection", "why_tests_cant": "depends on the order of exits and on who started whom", "anchors": ["src/avian/machine.h: addThread", "src/machine.cpp: killZombies, dispose, visitAll"]}
{"id": "C82", "title": "Failed thread start", "statement": "When the system cannot start a thread, the thread tree and the thread counters are as if the thread had never been created.", "quantifier": "all histories, including threads added concurrently to the same parent", "why_tests_cant": "needs the system to refuse a thread at a chosen moment", "anchors": ["src/avian/machine.h: startThread, removeThread", "src/machine.cpp: Thread::dispose, turnOffTheLights"]}
{"id": "C83", "title": "Reachable references", "statement": "A reachable reference to a strongly reachable object keeps it and is not enqueued; a reachable reference to an object that does not survive is cleared, and is enqueued if the object has no finalizer and the queue is reachable; nothing else is enqueued, no reference is enqueued twice, and no registered reference is left with a target or queue that is gone.", "quantifier": "all heaps, all histories of minor and major collections, reference creation, clear and enqueue", "why_tests_cant": "depends on which objects a collection finds, in which order, and in which generation", "anchors": ["src/machine.cpp: postVisit, referenceTargetUnreachable, referenceUnreachable, referenceTargetReachable, clearTargetIfFinalizable", "classpath/java/lang/ref/Reference.java"]}
{"id": "C84", "title": "Finalizers run exactly once", "statement": "Every object registered for finalization is queued exactly once: not before it stops being strongly reachable, not again afterwards, never missed by a collection that frees it, and it survives until its finalizer can run.", "quantifier": "all heaps, all histories of minor and major collections", "why_tests_cant": "depends on generations and on which objects are found together", "anchors": ["src/machine.cpp: postVisit, finalizerTargetUnreachable, addFinalizer"]}
{"id": "C85", "title": "References to finalizable objects are enqueued", "statement": "A reachable reference with a reachable queue is put on the queue after its target has become unreachable, also when the target has a finalizer.", "quantifier": "all heaps and histories of collections", "why_tests_cant": "needs all later collections", "anchors": ["src/machine.cpp: clearTargetIfFinalizable, postVisit"]}
{"id": "C86", "title": "No stale target", "statement": "After a collection no surviving reference has a target that did not survive.", "quantifier": "all heaps, major and minor collections", "why_tests_cant": "depends on objects brought back to life after the reference was dropped", "anchors": ["src/machine.cpp: referenceUnreachable, finalizerTargetUnreachable, postVisit"]}
{"id": "C87", "title": "Numbers and their text", "statement": "Long.toString and Integer.toString in any base from 2 to 36 give the canonical text of every number (Integer.toHexString and its siblings that of the unsigned number); reading that text back in the same base gives the number; any text of digits in either case that fits is read as the number it denotes; a text with a character that is no digit of the base is refused.", "quantifier": "all longs and ints, all bases 2 to 36, all texts", "why_tests_cant": "2^64 numbers times 35 bases; the most negative number wraps on the way", "anchors": ["classpath/java/lang/Long.java: toString, parseLong, pow", "classpath/java/lang/Integer.java: toString, parseInt, toHexString", "classpath/java/lang/Character.java: digit"]}
{"id": "C88", "title": "Text that is no number is refused", "statement": "Integer.parseInt and Long.parseLong throw NumberFormatException for every text that does not denote a number of the type, and leading zeros do not matter.", "quantifier": "all texts, all bases", "why_tests_cant": "infinitely many texts", "anchors": ["classpath/java/lang/Long.java: parseLong", "classpath/java/lang/Integer.java: parseInt"]}
{"id": "C89", "title": "Counting bits", "statement": "Integer.bitCount is the number of ones and Integer.numberOfLeadingZeros the number of zeros above the highest one, for every int.", "quantifier": "all ints", "why_tests_cant": "2^32 values and carries between fields", "anchors": ["classpath/java/lang/Integer.java: bitCount, numberOfLeadingZeros"]}
{"id": "C90", "title": "Comparing boxed longs", "statement": "Long.compareTo is negative, zero or positive exactly as the first number is less than, equal to or greater than the second; so is Integer.compareTo when the difference is an int.", "quantifier": "all pairs of numbers", "why_tests_cant": "2^128 pairs", "anchors": ["classpath/java/lang/Long.java: compareTo", "classpath/java/lang/Integer.java: compareTo"]}
{"id": "C91", "title": "Comparing boxed ints", "statement": "Integer.compareTo orders all ints.", "quantifier": "all pairs of ints", "why_tests_cant": "2^64 pairs; fails only when the difference overflows", "anchors": ["classpath/java/lang/Integer.java: compareTo"]}
{"id": "C92", "title": "Base 1, unsigned longs, reversed bytes", "statement": "Every accepted base gives a text; Long.toHexString, toOctalString and toBinaryString give the text of the unsigned number; Integer.reverseBytes reverses the four bytes.", "quantifier": "all longs, all accepted bases; all ints", "why_tests_cant": "ranges over all values", "anchors": ["classpath/java/lang/Long.java: toString, toHexString", "classpath/java/lang/Integer.java: reverseBytes"]}
{"id": "C93", "title": "A hash map is a map", "statement": "For keys whose equals is an equivalence and agrees with hashCode, every history of put, get, remove, containsKey, containsValue, size, clear and loops over the entries on a HashMap of any initial capacity up to 2^30 gives the results of a partial function on keys that starts empty; no call fails or fails to return.", "quantifier": "all key and value types, all hash functions, all capacities up to 2^30, all histories", "why_tests_cant": "growing, shrinking and chain order depend on the whole history and on which hashes collide", "anchors": ["classpath/java/util/HashMap.java: put, get, remove, containsKey, containsValue, size, clear, resize", "classpath/avian/Data.java: nextPowerOfTwo"]}
{"id": "C94", "title": "Looping over a hash map", "statement": "After any history a loop over the entries of a HashMap sees every entry exactly once, whichever entries it removes through the iterator and whether or not hasNext() is called between next() and remove(); afterwards exactly those entries are gone.", "quantifier": "all histories, all choices of entries to remove", "why_tests_cant": "the iterator keeps track of the previous cell across buckets; the choices are exponentially many", "anchors": ["classpath/java/util/HashMap.java: MyIterator.next, hasNext, remove"]}
{"id": "C95", "title": "Classes built on the hash map", "statement": "HashSet.remove tells whether the element was present; entrySet().contains and remove compare the value too; a capacity of any size can be given; a WeakHashMap loses only the entries whose keys were collected.", "quantifier": "all sets, maps and capacities", "why_tests_cant": "ranges over all histories and collection points", "anchors": ["classpath/java/util/HashSet.java: remove, add", "classpath/avian/Data.java: EntrySet, nextPowerOfTwo", "classpath/java/util/WeakHashMap.java: poll", "classpath/java/util/HashMap.java: remove(Cell)"]}
{"id": "C96", "title": "Walking the heap", "statement": "For every heap (shared objects, cycles, any depth) and every list of roots, the heap walk ends, tells the visitor of every object reachable from the roots exactly once as new and of no other object, and afterwards its map finds exactly those objects (and null), numbered in the order they were told.", "quantifier": "all finite heaps, all roots, all sizes of the object table and of the stack chunks", "why_tests_cant": "table growth, chunk changes and cycles depend on the whole graph", "anchors": ["src/heapwalk.cpp: walk, push, pop, find, add, MyHeapWalker"]}
{"id": "C97", "title": "The heap dump tells the object graph", "statement": "From the bytes of a heap dump alone the graph can be rebuilt: the description (number, size, class name) of each reachable object once and in order, the roots, and for each object the objects its reference fields lead to, in order of the fields.", "quantifier": "all finite heaps with fewer than 2^32 objects, all roots, sizes and class names below 2^32", "why_tests_cant": "the file has no lengths: whether it can be read back depends on every interleaving of tags the walk can produce", "anchors": ["src/heapdump.cpp: dumpHeap, Visitor, write4, writeString", "src/heapwalk.cpp: walk"]}
{"id": "C98", "title": "Compiled integer arithmetic", "statement": "For all registers, sizes and register contents, the x86-64 instruction bytes generated for integer add, subtract, and, or, xor, multiply, negate, absolute value, the three shifts, divide and remainder - with a register or any 64-bit constant as operand - run on the processor to the result the Java language defines (two's complement, shift counts modulo the width, division truncating), changing no other register except the announced temporary and no memory; a zero divisor traps. Exceptions: the most negative number divided by -1, and constant shift counts outside a byte (C102).", "quantifier": "all register pairs, both sizes, all constants, all machine states", "why_tests_cant": "16 x 16 registers, prefix rules and 2^64 values per operand", "anchors": ["src/codegen/target/x86/operations.cpp: addRR, addCR, subtractRR, subtractCR, andRR, andCR, orRR, orCR, xorRR, xorCR, multiplyRR, multiplyCR, negateR, divideRR, remainderRR, doShift, shiftLeftRR, shiftRightRR, unsignedShiftRightRR, absoluteRR", "src/codegen/target/x86/encode.cpp: maybeRex, modrm"]}
{"id": "C99", "title": "Compiled moves, loads and stores", "statement": "For all registers, operand sizes and addressing modes (any base register, any index register but rsp, scales 1, 2, 4, 8, any 32-bit offset), the generated bytes load the sign- or zero-extended value from exactly the address base + index * scale + offset, store exactly the low bytes of the register or constant there and nowhere else, and leave every other register and byte of memory alone; push, pop, exchange and loads from absolute addresses likewise.", "quantifier": "all registers, sizes, addressing modes, constants, machine states", "why_tests_cant": "the encodings have special cases (rsp, r12, rbp, r13, byte registers) that depend on the operands", "anchors": ["src/codegen/target/x86/operations.cpp: moveRR, moveMR, moveRM, moveCR, moveCM, moveAR, moveZRR, moveZMR, moveZCR, pushR, popR, swapRR", "src/codegen/target/x86/encode.cpp: modrmSibImm, modrmSib, sib, maybeRex, moveCR2"]}
{"id": "C100", "title": "Compiled integer branches", "statement": "The bytes generated for comparing two integers (register with register, constant or memory, constant with memory) and branching jump exactly when the signed relation holds, for all values of both sizes, and change nothing else.", "quantifier": "all relations, registers, constants, addressing modes, values", "why_tests_cant": "overflow of the subtraction", "anchors": ["src/codegen/target/x86/operations.cpp: compareRR, compareCR, compareRM, compareCM, branchRR, branchCR, branchRM, branchCM", "src/codegen/target/x86/encode.cpp: branch, conditional"]}
{"id": "C101", "title": "Compiled floating-point operations", "statement": "The bytes generated for floating-point add, subtract, multiply and divide (register or memory operand), for moves between general and xmm registers, loads, stores and moves of doubles between any xmm registers (floats between registers of the same half), and for negating or taking the absolute value in place, act on exactly the registers named.", "quantifier": "all xmm registers, sizes, addressing modes, contents", "why_tests_cant": "prefix rules per register pair", "anchors": ["src/codegen/target/x86/encode.cpp: sseMoveRR, sseMoveMR, sseMoveRM, floatRegOp, floatMemOp", "src/codegen/target/x86/operations.cpp: floatNegateRR, floatAbsoluteRR"]}
{"id": "C102", "title": "Compiled code agrees with the bytecode in every case", "statement": "Float moves between any two xmm registers, float comparison branches for all registers and for NaN, division of the most negative number by -1, shifts by any constant and lcmp of any longs give the result the bytecode defines.", "quantifier": "all registers, values and constants", "why_tests_cant": "corner cases of encodings and values", "anchors": ["src/codegen/target/x86/encode.cpp: sseMoveRR, branchFloat", "src/codegen/target/x86/operations.cpp: compareFloatRR, divideRR, doShift", "src/codegen/runtime.cpp: compareLongs", "src/compile.cpp: toCompilerFloatJumpOp"]}
{"id": "C103", "title": "Compilation of the reference maps ends", "statement": "For every method, with any control flow and any exception handlers, the just-in-time compiler finishes the calculation of the maps that tell the collector which slots of the frame hold references, and the result does not depend on how many passes it is allowed.", "quantifier": "all methods whose instructions stay within their frame, all control flow graphs, all exception tables", "why_tests_cant": "the passes repeat until nothing changes; no test bounds their number for all methods", "anchors": ["src/compile.cpp: calculateFrameMaps, calculateTryCatchRoots, compile(MyThread*, Context*), resolveIpForwards", "src/compile.cpp: Frame::set, Frame::trace, Frame::Frame, Frame::dispose"]}
{"id": "C104", "title": "Reference maps of methods without handlers", "statement": "At every call a method without exception handlers can reach, the collector is told exactly the slots of the frame that hold a reference on every path to the call.", "quantifier": "all methods without handlers, all paths, all calls, all slots", "why_tests_cant": "joins and loops make the set of paths infinite", "anchors": ["src/compile.cpp: calculateFrameMaps, calculateTryCatchRoots, compile(MyThread*, Context*), resolveIpForwards", "src/compile.cpp: Frame::set, Frame::trace, Frame::Frame, Frame::dispose"]}
{"id": "C105", "title": "The collector misses no reference", "statement": "In a method with exception handlers, a slot that holds a reference on every path to a call, including paths through handlers, is in the map of the call.", "quantifier": "all methods whose handlers are entered by exceptions only and can be entered, all paths, all calls", "why_tests_cant": "paths through handlers and loops are unbounded", "anchors": ["src/compile.cpp: calculateFrameMaps, calculateTryCatchRoots, compile(MyThread*, Context*), resolveIpForwards", "src/compile.cpp: Frame::set, Frame::trace, Frame::Frame, Frame::dispose"]}
{"id": "C106", "title": "The collector follows only references", "statement": "In a method with exception handlers, every slot in the map of a call holds a reference on every path to the call, so the collector never follows a number as if it were a reference.", "quantifier": "all methods with handlers, all paths, all calls", "why_tests_cant": "the wrong maps show only when the collector runs at the call after a path through a handler", "anchors": ["src/compile.cpp: calculateFrameMaps, calculateTryCatchRoots, compile(MyThread*, Context*), resolveIpForwards", "src/compile.cpp: Frame::set, Frame::trace, Frame::Frame, Frame::dispose"]}
{"id": "C107", "title": "The collector reads back the map of the call", "statement": "When the collector meets a frame of a compiled method, it visits exactly the slots that the compiler recorded for the call at which the frame stands, leaving out the arguments passed to the callee, for every number of calls and every frame size within the 32-bit limits of the table.", "quantifier": "all frame sizes and lists of calls within the limits, all maps, all calls", "why_tests_cant": "the packing shares words between calls, and the size of the index is recomputed from the length of the table by a division; no set of sizes covers it", "anchors": ["src/compile.cpp: makeSimpleFrameMapTable, copyFrameMap, setBit, clearBit, simpleFrameMapTableSize, findFrameMapInSimpleTable, visitStackAndLocals", "include/avian/util/math.h: ceilingDivide"]}
{"id": "C108", "title": "The map of a call is found in every legal method", "statement": "For every method a class file can declare, the collector finds the map of each of its calls.", "quantifier": "all methods of a legal class file: up to 65535 locals, 65535 stack slots, 65535 calls", "why_tests_cant": "the product that sizes the table overflows only for sizes no test uses", "anchors": ["src/compile.cpp: makeSimpleFrameMapTable, copyFrameMap, setBit, clearBit, simpleFrameMapTableSize, findFrameMapInSimpleTable, visitStackAndLocals", "include/avian/util/math.h: ceilingDivide"]}
{"id": "C109", "title": "Calls in compiled code find their methods", "statement": "A lookup of a call address that starts after the call was entered in the table finds the method entered for it, whatever other threads enter or look up meanwhile and however often the table grows; a lookup never returns anything that was not entered for that address, and it ends after a number of its own steps that later entries do not raise.", "quantifier": "all schedules of one inserting thread at a time and any number of lookups, all addresses, all numbers of entries", "why_tests_cant": "the lookups take no lock: a lost entry shows only under particular interleavings with a growing table", "anchors": ["src/compile.cpp: findCallNode, resizeTable, insertCallNode"]}
{"id": "C110", "title": "JNI local references", "statement": "A JNI local reference denotes its object from the moment it is obtained until it is deleted or its frame is popped, also when the same object is referenced several times or from several frames; PushLocalFrame and PopLocalFrame may be nested to any depth, PopLocalFrame leaves exactly the references there were before the matching PushLocalFrame, and none of the functions fails or fails to end, as long as native code deletes references only in the frame in which it obtained them.", "quantifier": "all sequences of NewLocalRef, DeleteLocalRef, PushLocalFrame and PopLocalFrame, all objects, all depths, all placements of the cells in memory", "why_tests_cant": "references are shared and counted, so faults depend on the history of all frames", "anchors": ["src/compile.cpp: MyProcessor::makeLocalReference, disposeLocalReference, pushLocalFrame, popLocalFrame, invokeNativeSlow", "src/jnienv.cpp: NewLocalRef, DeleteLocalRef, PushLocalFrame, PopLocalFrame", "src/avian/machine.h: Reference, dispose, acquire, release"]}
{"id": "C111", "title": "Every local reference may be deleted", "statement": "DeleteLocalRef may be called on every local reference of the native method: those of outer local frames and those of its arguments.", "quantifier": "all legal sequences of the functions", "why_tests_cant": "needs a particular order of references and frames", "anchors": ["src/compile.cpp: MyProcessor::makeLocalReference, disposeLocalReference, pushLocalFrame, popLocalFrame, invokeNativeSlow", "src/jnienv.cpp: NewLocalRef, DeleteLocalRef, PushLocalFrame, PopLocalFrame", "src/avian/machine.h: Reference, dispose, acquire, release"]}
{"id": "C112", "title": "Local references are given up", "statement": "An object is no longer kept alive by local references when all its references have been deleted, or when the native method has returned or thrown.", "quantifier": "all legal sequences of the functions, normal and exceptional ends of native methods", "why_tests_cant": "a leak does not show in the result of a test", "anchors": ["src/compile.cpp: MyProcessor::makeLocalReference, disposeLocalReference, pushLocalFrame, popLocalFrame, invokeNativeSlow", "src/jnienv.cpp: NewLocalRef, DeleteLocalRef, PushLocalFrame, PopLocalFrame", "src/avian/machine.h: Reference, dispose, acquire, release"]}
{"id": "C113", "title": "ArrayDeque is a double-ended queue", "statement": "Whatever sequence of offerFirst, offerLast, pollFirst, pollLast, peekFirst, peekLast, clear, size, contains, toArray and iterations is made on an ArrayDeque created with room for at least one element, every call answers as a list of the elements would, and none throws.", "quantifier": "all sequences of calls, all elements, all initial capacities from one", "why_tests_cant": "the elements wrap around a growing array: faults need particular lengths, starts and orders of calls", "anchors": ["classpath/java/util/ArrayDeque.java: ArrayDeque"]}
{"id": "C114", "title": "Removal, backward iteration and empty capacity of ArrayDeque", "statement": "Removing an element of an ArrayDeque that is present removes its first occurrence and nothing else, descendingIterator gives the elements from last to first, and every ArrayDeque, also one created with capacity 0 or from an empty collection, accepts elements.", "quantifier": "all sequences of calls, all elements, all capacities", "why_tests_cant": "depends on where the elements lie in the array", "anchors": ["classpath/java/util/ArrayDeque.java: ArrayDeque"]}
{"id": "C115", "title": "System.arraycopy copies", "statement": "For two arrays of one class (also the same array, with overlapping ranges), or two arrays of references, System.arraycopy with both ranges inside the arrays stores at each place of the range the element the source had before, changes nothing else, and reports every stored reference to the collector; with a negative length, or a range that leaves its array, it throws IndexOutOfBoundsException and changes nothing; null and objects that are no arrays are refused.", "quantifier": "all arrays of all element sizes, all offsets and lengths", "why_tests_cant": "all overlaps and boundaries cannot be enumerated", "anchors": ["src/avian/classpath-common.h: arrayCopy, compatibleArrayTypes", "src/machine.cpp: bootClass, makeArrayClass, boot", "src/classpath-avian.cpp: Avian_java_lang_System_arraycopy"]}
{"id": "C116", "title": "System.arraycopy stays inside the arrays", "statement": "Whatever arrays, offsets and length System.arraycopy is called with, it does not write outside the destination, and its behaviour is defined.", "quantifier": "all arrays of all classes, all ints as offsets and length", "why_tests_cant": "memory corruption need not show in a test", "anchors": ["src/avian/classpath-common.h: arrayCopy, compatibleArrayTypes", "src/machine.cpp: bootClass, makeArrayClass, boot", "src/classpath-avian.cpp: Avian_java_lang_System_arraycopy"]}
{"id": "C117", "title": "System.arraycopy checks its arguments", "statement": "System.arraycopy refuses to copy between arrays of different primitive types or between primitives and references, never stores an element that is not an instance of the element class of the destination, and throws for offsets outside the arrays also when the length is 0.", "quantifier": "all arrays of all classes, all offsets and lengths", "why_tests_cant": "there are too many pairs of types, and a wrong element shows only where it is used", "anchors": ["src/avian/classpath-common.h: arrayCopy, compatibleArrayTypes", "src/machine.cpp: bootClass, makeArrayClass, boot", "src/classpath-avian.cpp: Avian_java_lang_System_arraycopy"]}
{"id": "C118", "title": "BitSet is a set of indexes", "statement": "However a BitSet was built, by set, clear and flip of single bits, set and flip of non-empty ranges, and, or, xor and andNot with other BitSets, get tells exactly the indexes it should contain, isEmpty whether there is none, and none of these calls throws.", "quantifier": "all ways to build, all indexes up to 2^31 - 65", "why_tests_cant": "ranges meet words in many ways, and sets of all sizes are combined", "anchors": ["classpath/java/util/BitSet.java: BitSet"]}
{"id": "C119", "title": "Searching and clearing ranges of BitSet", "statement": "nextSetBit and nextClearBit find the next index that is, or is not, in the set, cardinality counts its members, length is one more than the greatest member, set and clear of a range change exactly that range, also if it is empty or beyond the greatest member, intersects answers for all pairs of sets, and combining sets does not make them grow without bound.", "quantifier": "all sets, all indexes and ranges", "why_tests_cant": "depends on which words are zero and how long the arrays are", "anchors": ["classpath/java/util/BitSet.java: BitSet"]}
{"id": "C120", "title": "ConcurrentLinkedQueue is a linearizable queue", "statement": "Whatever add, offer, poll and peek calls any number of threads make on a ConcurrentLinkedQueue, and however they interleave, each call takes effect at one moment between its start and its return: add puts its element last, poll removes and returns the first element, peek returns it, and poll and peek return null only if the queue was empty at a moment of the call. Nothing is lost or delivered twice, and no call fails.", "quantifier": "all sets of threads and calls, all interleavings of their accesses to memory", "why_tests_cant": "the interleavings that matter are rare and unboundedly many", "anchors": ["classpath/java/util/concurrent/ConcurrentLinkedQueue.java: ConcurrentLinkedQueue"]}
{"id": "C121", "title": "FutureTask runs once and delivers", "statement": "However many threads call run, cancel and get on a FutureTask, the callable is called at most once; get returns what it returned, throws what it threw, or tells that the task was cancelled, and tells that time ran out only if it did; done and cancelled are final; a task cancelled before it ran never runs; and unless cancel(true) is called, once run or cancel has been called no call waits forever.", "quantifier": "all sets of threads and calls, all interleavings, interrupts and times", "why_tests_cant": "a lost wake-up needs one interleaving of many", "anchors": ["classpath/java/util/concurrent/FutureTask.java: FutureTask"]}
{"id": "C122", "title": "FutureTask can be cancelled while it runs", "statement": "After cancel(true) every call of run and get ends, cancel(true) returns true if it made the task cancelled, and get of a finished task with a limit of time 0 gives its result.", "quantifier": "all sets of threads and calls, all interleavings", "why_tests_cant": "the faults need one interleaving of many", "anchors": ["classpath/java/util/concurrent/FutureTask.java: FutureTask"]}
{"id": "C123", "title": "TreeSet and TreeMap answer like a sorted list and a map", "statement": "Whatever calls of add, contains, remove, size, first, last, clear and iterations in both directions are made on a TreeSet, with any comparator that keeps the laws of Comparator, each answers what it would answer on the list of the elements in order without duplicates; put, get, remove and containsKey of a TreeMap answer what they would answer on a map.", "quantifier": "all comparators, all sequences of calls, all elements", "why_tests_cant": "the shapes of the tree are unboundedly many, and a rebalancing may fail in one of them", "anchors": ["classpath/java/util/TreeSet.java: TreeSet", "classpath/java/util/TreeMap.java: TreeMap", "classpath/avian/PersistentSet.java: PersistentSet"]}
{"id": "C124", "title": "TreeSet stays balanced", "statement": "However elements are added to a TreeSet and removed from it, no element is deeper in its tree than twice the binary logarithm of the number of elements plus one, so that no call looks at more elements than that on its way.", "quantifier": "all comparators, all sequences of calls", "why_tests_cant": "an unbalanced tree still gives right answers", "anchors": ["classpath/java/util/TreeSet.java: TreeSet", "classpath/java/util/TreeMap.java: TreeMap", "classpath/avian/PersistentSet.java: PersistentSet"]}
{"id": "C125", "title": "A TreeSet can be thinned by its iterator", "statement": "An iteration over a TreeSet that calls remove() for any of the elements it gets sees every element once, in order, and leaves exactly the others.", "quantifier": "all comparators, all reachable sets, all choices of the elements to remove", "why_tests_cant": "the removal rebuilds paths in a tree of any shape", "anchors": ["classpath/java/util/TreeSet.java: TreeSet", "classpath/java/util/TreeMap.java: TreeMap", "classpath/avian/PersistentSet.java: PersistentSet"]}
{"id": "C126", "title": "TreeMap's views and ends, PersistentSet's removal by value", "statement": "keySet().add of a key that a TreeMap has answers false and changes nothing; firstEntry and lastEntry of an empty TreeMap answer null; PersistentSet.remove(value) removes the value.", "quantifier": "all maps and sets, all keys", "why_tests_cant": "the faulty cases are easily left out of a test", "anchors": ["classpath/java/util/TreeSet.java: TreeSet", "classpath/java/util/TreeMap.java: TreeMap", "classpath/avian/PersistentSet.java: PersistentSet"]}
{"id": "C127", "title": "ConcurrentHashMap is linearizable for keys with distinct hash codes", "statement": "Whatever calls of get, containsKey, put, putIfAbsent, replace, remove, size, clear and iterations any number of threads make on a ConcurrentHashMap, and however they interleave, each call takes effect at one moment between its start and its return, as on a map; an iteration gives the entries of one moment; a call tries again only if another call changed the map or acted in the meantime. The keys have different hash codes less than 2^31 apart.", "quantifier": "all keys with such hash codes, all sets of threads and calls, all interleavings of their accesses to the map's field", "why_tests_cant": "the interleavings that matter are rare and unboundedly many", "anchors": ["classpath/java/util/concurrent/ConcurrentHashMap.java: ConcurrentHashMap", "classpath/avian/PersistentSet.java: PersistentSet"]}
{"id": "C128", "title": "ConcurrentHashMap is a map for all keys", "statement": "get returns what was put last for the key, whatever the hash codes of the keys; keySet().contains(key) and keySet().remove(key) return false for a key that is not there.", "quantifier": "all keys and hash codes, all sequences of calls", "why_tests_cant": "collisions and overflows of hash codes are rare in tests", "anchors": ["classpath/java/util/concurrent/ConcurrentHashMap.java: ConcurrentHashMap", "classpath/avian/PersistentSet.java: PersistentSet"]}
{"id": "C129", "title": "LinkedList is a list and its iterators are cursors", "statement": "Whatever calls are made on a new LinkedList, each answers as for a plain sequence of elements: add, addFirst, addLast, get, set, peek, poll, remove by index and by element, contains, indexOf, lastIndexOf, size, clear, iteration. An iterator goes over the elements in both directions and remove() takes out exactly the element it returned last. Left out are add at an index above 0 and calls that meet a null element or the first element as C130 says.", "quantifier": "all elements (null too) and equals, all sequences of calls, all sequences of calls of an iterator over the list they leave", "why_tests_cant": "the links of the cells have to agree after every possible history", "anchors": ["classpath/java/util/LinkedList.java: LinkedList, LinkedListIterator"]}
{"id": "C130", "title": "LinkedList is a list for all calls", "statement": "add(index, e) puts e at the index and makes the list one longer for every index up to the size; removeFirstOccurrence and removeLastOccurrence remove an occurrence wherever it is; pollLast answers null for an empty list; removeFirst, removeLast and element answer a null element that is there.", "quantifier": "all lists, elements and indexes", "why_tests_cant": "the failing cases are particular indexes and null elements", "anchors": ["classpath/java/util/LinkedList.java: LinkedList, LinkedListIterator"]}
{"id": "C131", "title": "LinkedBlockingQueue is a bounded first-in first-out queue", "statement": "Whatever calls any number of threads make on a LinkedBlockingQueue, and however they interleave, are interrupted, woken or timed out: each call that returns acts exactly once, at one moment between its start and its return, as on a bounded queue; an interrupted call does not act; the queue never holds more than its capacity; elements come out in the order they went in and none is lost or doubled; offer and poll with a limit give up only when it is over; without addAll and clear, a put or offer sleeps only if there is no room, and a take or poll only if there is no element. No element is null.", "quantifier": "all elements, capacities, limits, sets of threads and calls, all interleavings, interruptions and spurious wake-ups", "why_tests_cant": "lost wake-ups and races show only in rare schedules", "anchors": ["classpath/java/util/concurrent/LinkedBlockingQueue.java: LinkedBlockingQueue"]}
{"id": "C132", "title": "LinkedBlockingQueue wakes waiting threads after every call", "statement": "After addAll a waiting take or poll goes on; after clear a waiting put or offer goes on; null elements are refused.", "quantifier": "all sets of threads and calls", "why_tests_cant": "a thread that sleeps for ever shows only if another is waiting at the time of the call", "anchors": ["classpath/java/util/concurrent/LinkedBlockingQueue.java: LinkedBlockingQueue"]}
{"id": "C133", "title": "Machine code is laid out in the order of the bytecode", "statement": "The machine code of a compiled method has the code of every bytecode instruction that was compiled, each piece exactly once, in the order of the instructions in the class file, whatever order control flow made the compiler visit them in. For every method without tableswitch the visit ends and makes code for each instruction once.", "quantifier": "all bytecode without tableswitch and jsr, of any length, with any branches, lookupswitches and handlers; for the ordering itself, all orders in which code is made that do not come back to an instruction directly behind the code of the instruction before it", "why_tests_cant": "control flow graphs are unbounded, and an instruction put in the wrong place shows only if it is jumped to, throws or is looked up", "anchors": ["src/compile.cpp: compile", "src/codegen/compiler.cpp: compile, MyCompiler::resolve", "src/codegen/compiler/ir.cpp: LogicalInstruction::next"]}
{"id": "C134", "title": "Methods with tableswitch are laid out in full", "statement": "The machine code of every compiled method has each piece of code made for it exactly once.", "quantifier": "all bytecode with tableswitch", "why_tests_cant": "only a default target that is compiled first through the switch and lies just before it goes wrong", "anchors": ["src/compile.cpp: compile", "src/codegen/compiler.cpp: compile, MyCompiler::resolve", "src/codegen/compiler/ir.cpp: LogicalInstruction::next"]}
{"id": "C135", "title": "An exception in compiled code reaches the handler the class file names", "statement": "Compiling a method ends, for every bytecode and exception table. An exception thrown by an instruction of a compiled method is handled by the first entry of the class file's exception table whose region has the instruction and whose type matches, and by none if there is none; the handler's code is compiled. This holds for methods without jsr and tableswitch, all of whose regions end at the end of the code or at an instruction that is compiled; with tableswitch, if the code is laid out in order (C133).", "quantifier": "all bytecode, exception tables, machine code sizes, thrown types and addresses", "why_tests_cant": "nesting of regions, overlaps and handlers that are reached only from other handlers are unbounded, and a wrong boundary shows only for the one instruction next to it", "anchors": ["src/compile.cpp: compile, translateExceptionHandlerTable, findExceptionHandler, resolveIpForwards, resolveIpBackwards"]}
{"id": "C136", "title": "Regions that end before unreachable code are guarded in full", "statement": "As C135, for regions of which the instruction behind the end is never reached.", "quantifier": "all bytecode without jsr and tableswitch, and all exception tables", "why_tests_cant": "needs dead code behind a try block", "anchors": ["src/compile.cpp: compile, translateExceptionHandlerTable, findExceptionHandler, resolveIpForwards, resolveIpBackwards"]}
{"id": "C137", "title": "Stack traces give the line of the instruction that threw", "statement": "The line of a compiled instruction is that of the last entry of the class file's line number table at or before it.", "quantifier": "all bytecode and ascending line number tables", "why_tests_cant": "depends on the exact distance between entries", "anchors": ["src/compile.cpp: translateLineNumberTable, resolveIpForwards", "src/process.cpp: findLineNumber"]}
{"id": "C138", "title": "Sorting sorts, searching finds", "statement": "Arrays.sort and Collections.sort end without an exception for every array or list and every comparator that keeps its contract; the result has the same elements in ascending order. Arrays.binarySearch in a range and Collections.binarySearch give, for sorted input, the index of an equal element if there is one, and otherwise the place where it would have to be put. Collections.reverse reverses.", "quantifier": "all element types, comparators that keep the contract, and arrays and lists; for searching, of up to 2^30 elements", "why_tests_cant": "partition and heap steps depend on the relative order of all elements, and limits are reached only by inputs made for it", "anchors": ["classpath/java/util/Arrays.java: sort, introSort, heapSort, siftDown, insertionSort, binarySearch", "classpath/java/util/Collections.java: sort, binarySearch, reverse"]}
{"id": "C139", "title": "Sorting is stable, and the whole array is searched", "statement": "Elements that compare equal stay in order; Integers are sorted by value; Arrays.binarySearch of an int[] searches all of it.", "quantifier": "all arrays and lists", "why_tests_cant": "stability shows only with more than sixteen elements, and the last element is one of many", "anchors": ["classpath/java/util/Arrays.java: sort, introSort, heapSort, siftDown, insertionSort, binarySearch", "classpath/java/util/Collections.java: sort, binarySearch, reverse"]}
{"id": "C140", "title": "ArrayList is a list", "statement": "Whatever is called on an ArrayList, every call answers as a plain sequence of elements would, null elements included, however the array behind it is grown, halved or dropped. Its iterators go over the elements in both directions and remove exactly the element returned last.", "quantifier": "all histories of calls with indices add may accept, all element types and equals methods", "why_tests_cant": "a wrong bound in growing or halving shows only at certain sizes, after certain histories", "anchors": ["classpath/java/util/ArrayList.java: add, get, set, remove, indexOf, lastIndexOf, contains, grow, shrink, resize", "classpath/java/util/Collections.java: ArrayListIterator", "classpath/java/util/AbstractCollection.java: toArray"]}
{"id": "C141", "title": "ArrayList refuses wrong indices and copies itself", "statement": "add refuses an index below zero or beyond the size and leaves the list as it was; toArray gives the elements of any list; addAll of a list to itself ends.", "quantifier": "all lists, indices and elements", "why_tests_cant": "the failing calls are rare, and what a refused call leaves behind depends on the history", "anchors": ["classpath/java/util/ArrayList.java: add, get, set, remove, indexOf, lastIndexOf, contains, grow, shrink, resize", "classpath/java/util/Collections.java: ArrayListIterator", "classpath/java/util/AbstractCollection.java: toArray"]}
{"id": "C142", "title": "Field references name the field Java says", "statement": "A field reference naming a class is resolved to the field the Java virtual machine specification names whenever the Java language leaves no doubt: the class itself declares it, or no interface does, or only one interface does. What is found is always a field of that name and type of the class, a superclass or an interface of it.", "quantifier": "all hierarchies of classes and interfaces, field names and orders in which hash tables list interfaces", "why_tests_cant": "hierarchies are unbounded, and which of two fields is found depends on hash order", "anchors": ["src/machine.cpp: findInHierarchyOrNull, findInInterfaces, findInTable, findFieldInClass, findMethodInClass, resolveField", "src/avian/machine.h: findVirtualMethod, findInterfaceMethod, resolve"]}
{"id": "C143", "title": "Every field reference is resolved as specified", "statement": "Field references naming interfaces, hidden fields and fields of both superclass and interface are resolved by the rules of the specification, by JNI's GetFieldID too.", "quantifier": "all hierarchies and field names", "why_tests_cant": "the failing cases depend on the number and hash order of interfaces", "anchors": ["src/machine.cpp: findInHierarchyOrNull, findInInterfaces, findInTable, findFieldInClass, findMethodInClass, resolveField", "src/avian/machine.h: findVirtualMethod, findInterfaceMethod, resolve"]}
{"id": "C144", "title": "A call by name runs the right code", "statement": "A method reference naming a class or interface is resolved exactly if the class, a superclass or an interface declares the method; invokevirtual and invokeinterface then run, for an object of any class below, the code of the nearest superclass declaring the method, or else of an interface that does.", "quantifier": "all hierarchies, method names and receiver classes", "why_tests_cant": "combines resolution and dispatch over unbounded hierarchies", "anchors": ["src/machine.cpp: findInHierarchyOrNull, findInInterfaces, findInTable, findFieldInClass, findMethodInClass, resolveField", "src/avian/machine.h: findVirtualMethod, findInterfaceMethod, resolve"]}
{"id": "C145", "title": "Methods of Object can be called through interfaces", "statement": "invokeinterface of a method of java.lang.Object runs it.", "quantifier": "all interfaces, classes and methods", "why_tests_cant": "compilers rarely emit such calls", "anchors": ["src/machine.cpp: findInHierarchyOrNull, findInInterfaces, findInTable, findFieldInClass, findMethodInClass, resolveField", "src/avian/machine.h: findVirtualMethod, findInterfaceMethod, resolve"]}
{"id": "C146", "title": "One class per type and loader", "statement": "Among the built-in loaders, asking for a type by name gives the class of that name defined by the loader nearest to the root that has it, or none; the same type asked again at any later time, from any loader that delegates to the same definer, gives the same class object, and different types different ones; the element class of an array class is the class the same loader answers for the element type, and making an array of a class uses the array class of that very class.", "quantifier": "all trees of system loaders, sets of class files, histories of requests (of any names) and types of any number of dimensions", "why_tests_cant": "histories, delegation chains and nestings of arrays are unbounded", "anchors": ["src/machine.cpp: resolveClass, resolveSystemClass, resolveArrayClass, makeArrayClass, findLoadedClass, saveLoadedClass, resolveObjectArrayClass"]}
{"id": "C147", "title": "Names that are no names of types are refused", "statement": "Asking for a class by a name that is not the name of a type (a lone bracket, an unknown letter, a missing semicolon, something behind it, more than 255 dimensions) answers ClassNotFoundException.", "quantifier": "all names and states", "why_tests_cant": "the names are unbounded and each wrong kind goes wrong in its own way", "anchors": ["src/machine.cpp: resolveClass, resolveSystemClass, resolveArrayClass, makeArrayClass, findLoadedClass, saveLoadedClass, resolveObjectArrayClass"]}
{"id": "C148", "title": "Class loaders written in Java define a class once", "statement": "A loader that is not built in answers the same class for a name every time, whether the VM or the program asks; Class.forName finds the arrays of what it finds; arrays made by its classes have its classes as elements.", "quantifier": "all loaders, names and histories of requests", "why_tests_cant": "depends on the order in which VM and program ask", "anchors": ["src/machine.cpp: defineClass, resolveClass, resolveArrayClass", "classpath/java/lang/ClassLoader.java: loadClass, findLoadedClass, defineClass", "classpath/avian/Classes.java: forName"]}
{"id": "C149", "title": "A new multi-dimensional array is full", "statement": "For every array type and as many counts as it has dimensions or fewer: if no count is below zero, every sequence of indices within the counts leads to an array of the right class and length, of which the last ones hold only null or zero, no two sequences lead to the same array and no older object is changed; otherwise NegativeArraySizeException is thrown.", "quantifier": "all array types, numbers of dimensions and counts", "why_tests_cant": "dimensions and counts are unbounded, and sharing of rows shows only when a row is written", "anchors": ["src/machine.cpp: populateMultiArray", "src/compile.cpp: makeMultidimensionalArray2", "src/interpret.cpp: multianewarray"]}
{"id": "C150", "title": "Memory of multi-dimensional arrays", "statement": "The memory behind every array that multianewarray makes covers its header and all elements of its length.", "quantifier": "all array types and counts", "why_tests_cant": "the failing counts need sizes tests avoid", "anchors": ["src/machine.cpp: populateMultiArray", "src/compile.cpp: makeMultidimensionalArray2", "src/interpret.cpp: multianewarray"]}
{"id": "C151", "title": "A StringBuilder shows its text", "statement": "After every history of append, insert of a string, reading, setLength to at most the length, and delete, replace or setCharAt at the end of the text, with any refused calls between, every call on a StringBuilder answers as documented for the text built so far.", "quantifier": "all histories of such calls, all strings, characters and indices", "why_tests_cant": "the text is kept in a chain of pieces and a buffer whose shape depends on the whole history of calls", "anchors": ["classpath/java/lang/StringBuilder.java: append", "classpath/java/lang/StringBuilder.java: charAt", "classpath/java/lang/StringBuilder.java: insert", "classpath/java/lang/StringBuilder.java: delete", "classpath/java/lang/StringBuilder.java: setLength", "classpath/java/lang/StringBuilder.java: getChars"]}
{"id": "C152", "title": "Changing the middle of a StringBuilder", "statement": "delete, deleteCharAt, replace, setCharAt, setLength and insert change any part of the text as documented, whatever the history.", "quantifier": "all histories and index ranges", "why_tests_cant": "whether they do depends on how the text was appended piece by piece", "anchors": ["classpath/java/lang/StringBuilder.java: append", "classpath/java/lang/StringBuilder.java: charAt", "classpath/java/lang/StringBuilder.java: insert", "classpath/java/lang/StringBuilder.java: delete", "classpath/java/lang/StringBuilder.java: setLength", "classpath/java/lang/StringBuilder.java: getChars"]}
{"id": "C153", "title": "Strings are searched, compared, cut and replaced as documented", "statement": "For all strings, whatever array and window they are kept in: indexOf and lastIndexOf return the first or last occurrence of a character or of a text that is not empty; contains, startsWith(p), endsWith and equals tell what their names say; compareTo returns the documented number and orders strings totally; substring returns the characters asked for or throws; trim cuts all blanks (space, tab, CR, LF) at both ends and no more; replace(text, text) replaces every occurrence from the beginning on.", "quantifier": "all strings of byte or char arrays with any window, all indices from zero on", "why_tests_cant": "texts, windows and patterns are unbounded and overlap in any way", "anchors": ["classpath/java/lang/String.java: indexOf", "classpath/java/lang/String.java: lastIndexOf", "classpath/java/lang/String.java: contains", "classpath/java/lang/String.java: compareTo", "classpath/java/lang/String.java: equals", "classpath/java/lang/String.java: substring", "classpath/java/lang/String.java: startsWith", "classpath/java/lang/String.java: endsWith", "classpath/java/lang/String.java: trim", "classpath/java/lang/String.java: replace", "classpath/java/lang/String.java: charAt", "classpath/java/lang/String.java: regionMatches"]}
{"id": "C154", "title": "Strings at their limits", "statement": "startsWith(p, start) tells whether p is found at start; charAt throws for every index that is not below the length; replace(char, char) replaces exactly the given character; starts below zero and empty patterns are taken as documented.", "quantifier": "all strings, characters and indices", "why_tests_cant": "the failing cases depend on the array behind the string and on rare indices", "anchors": ["classpath/java/lang/String.java: indexOf", "classpath/java/lang/String.java: lastIndexOf", "classpath/java/lang/String.java: contains", "classpath/java/lang/String.java: compareTo", "classpath/java/lang/String.java: equals", "classpath/java/lang/String.java: substring", "classpath/java/lang/String.java: startsWith", "classpath/java/lang/String.java: endsWith", "classpath/java/lang/String.java: trim", "classpath/java/lang/String.java: replace", "classpath/java/lang/String.java: charAt", "classpath/java/lang/String.java: regionMatches"]}
{"id": "C155", "title": "The constants of a class file", "statement": "Every legal constant pool is read in full: each index gives the number, text, class, string, member, method handle, method type or dynamic call the class file states, whatever the order of the entries; reading goes on right behind the pool; the collector is told exactly which entries are objects, and the compiler which are floats or doubles.", "quantifier": "all lists of entries of all kinds within the format's limits, all contents before and behind the pool", "why_tests_cant": "entries refer to each other forwards and backwards in any order, and longs and doubles shift the indexes", "anchors": ["src/machine.cpp: parsePool", "src/machine.cpp: parsePoolEntry", "src/avian/machine.h: makeSingletonOfSize", "src/avian/machine.h: singletonMarkObject", "src/avian/machine.h: poolSize"]}
{"id": "C156", "title": "Malformed constant pools are refused", "statement": "Reading a constant pool that is not legal comes back with an error and touches no memory outside the tables.", "quantifier": "all byte sequences", "why_tests_cant": "there are arbitrarily many ways to be malformed, and the effects depend on the memory next to the tables", "anchors": ["src/machine.cpp: parsePool", "src/machine.cpp: parsePoolEntry", "src/avian/machine.h: makeSingletonOfSize", "src/avian/machine.h: singletonMarkObject", "src/avian/machine.h: poolSize"]}
{"id": "C157", "title": "JNI field and method ids", "statement": "GetFieldID and GetMethodID give each field or method one id for ever, never null, and different ones different ids; whoever uses an id that was issued, while other threads are given new ids, finds the field or method it was issued for; no thread waits for ever.", "quantifier": "all schedules of any number of threads that ask for ids of any fields and use ids issued to them or to others", "why_tests_cant": "ids are made without a lock on the fast path while the table is copied and replaced; failures need particular interleavings", "anchors": ["src/jnienv.cpp: fieldID", "src/jnienv.cpp: methodID", "src/jnienv.cpp: getField", "src/jnienv.cpp: getMethod", "src/util.cpp: vectorAppend"]}
{"id": "C158", "title": "Output streams deliver what was written", "statement": "After any history of writes and flushes a BufferedOutputStream of size above 0 has thrown nothing, has passed on a prefix of the bytes written, and after a flush all of them, in order, once each. toByteArray and size of a ByteArrayOutputStream give exactly the bytes written since the last reset at every point of every history.", "quantifier": "all histories of single bytes, arrays of any length, flushes, resets and reads; all buffer sizes above 0", "why_tests_cant": "what is in the buffer, passed on or chained depends on how the sizes of all earlier writes add up", "anchors": ["classpath/java/io/BufferedOutputStream.java: write, flush, drain", "classpath/java/io/ByteArrayOutputStream.java: write, flushBuffer, toByteArray, size, reset"]}
{"id": "C159", "title": "Input streams give what comes, in order", "statement": "Reads of single bytes and of ranges from a BufferedInputStream, and of ranges from a BufferedReader, give the bytes of the stream underneath in order, at least one and at most as many as asked for, and -1 only at the end. readLine gives the lines of the text when it has no \\r\\n pair, and for any text the right line and loses no character of the rest.", "quantifier": "all texts, all buffer sizes above 0, all sizes of the pieces in which the stream underneath gives its bytes, all answers of its available(), all histories of calls", "why_tests_cant": "the pieces depend on files, pipes and the network; boundaries fall anywhere", "anchors": ["classpath/java/io/BufferedInputStream.java: read, fill", "classpath/java/io/BufferedReader.java: read, readLine, fill"]}
{"id": "C160", "title": "Data streams read back what they wrote", "statement": "Booleans, bytes, shorts, chars, ints and longs, signed or unsigned, written by a DataOutputStream in any sequence are read back unchanged by a DataInputStream, which is then exactly behind them; the bytes are big-endian.", "quantifier": "all sequences of values of these kinds, all values, whatever follows", "why_tests_cant": "2^64 values and every sequence of kinds", "anchors": ["classpath/java/io/DataOutputStream.java", "classpath/java/io/DataInputStream.java"]}
{"id": "C161", "title": "Floats, line ends, available and empty buffers", "statement": "DataInputStream reads back floats and doubles; \\r\\n is one end of line wherever it falls; available() is never negative; a BufferedOutputStream of any size accepts bytes.", "quantifier": "all floats, texts, buffer sizes and histories", "why_tests_cant": "one value in every range, or one position of a line end relative to the buffer, is enough to break it", "anchors": ["classpath/java/io/DataInputStream.java: readFloat, readDouble", "classpath/java/io/BufferedReader.java: readLine", "classpath/java/io/BufferedInputStream.java: available", "classpath/java/io/BufferedOutputStream.java: write"]}
{"id": "C162", "title": "Strings and bytes", "statement": "getBytes of any string without U+0000 gives its (modified) UTF-8 encoding, new String of the encoding of any text is that text, so strings come back from their bytes; whatever the bytes, decoding stays inside its arrays.", "quantifier": "all texts of 16-bit characters; for the last part all byte arrays", "why_tests_cant": "2^16 characters in all sequences; the array of characters is sized when the first long character is met", "anchors": ["classpath/avian/Utf8.java: encode, decode", "classpath/java/lang/String.java: String(byte[]), getBytes"]}
{"id": "C163", "title": "Readers and writers of text", "statement": "InputStreamReader over the encoding of any text gives its characters in order, at least one and at most as many as asked for per call, -1 only at the end, and U+FFFD for a character that the end cuts; it never writes outside its buffer or the range given. What OutputStreamWriter wrote in any pieces is read back so.", "quantifier": "all texts, all sizes of the pieces in which the stream underneath gives bytes, all sizes asked for, all ends inside a character", "why_tests_cant": "characters are cut by reads at any place; network and pipes decide where", "anchors": ["classpath/java/io/InputStreamReader.java: read", "classpath/java/io/OutputStreamWriter.java: write", "classpath/avian/Utf8.java: decode16"]}
{"id": "C164", "title": "U+0000, malformed bytes and Latin-1", "statement": "Strings with U+0000 come back from their bytes; new String(byte[]) ends for every byte array; text in Latin-1 comes back from its bytes.", "quantifier": "all texts and byte arrays", "why_tests_cant": "one character or one array in 2^n is enough to break it", "anchors": ["classpath/avian/Utf8.java: encode, decode", "classpath/java/lang/String.java: String(byte[], int, int, boolean)"]}
{"id": "C165", "title": "Byte buffers", "statement": "A ByteBuffer on part of an array or of memory is a window of bytes with a position and a limit: values are put and got most significant byte first at the position or the index given, a call that does not fit throws and changes nothing, flip, clear, rewind and compact move position, limit and bytes as documented, what is put is got back, and bytes outside the window are never changed.", "quantifier": "all windows in all arrays or memory, all histories of calls, all values and sizes", "why_tests_cant": "the checks compare sums and differences of 32-bit numbers with the limit, at every index", "anchors": ["classpath/java/nio/ByteBuffer.java: put, get, checkPut, checkGet, compact", "classpath/java/nio/ArrayByteBuffer.java", "classpath/java/nio/DirectByteBuffer.java", "classpath/java/nio/Buffer.java"]}
{"id": "C166", "title": "Byte buffers and wrong arguments", "statement": "A ByteBuffer refuses indices outside its limit and positions and limits outside its capacity; reading into an array advances it; a slice of a writable buffer can be written; compact keeps the bytes that remain.", "quantifier": "all buffers, all 32-bit arguments", "why_tests_cant": "indices that wrap are two in 2^32", "anchors": ["classpath/java/nio/ByteBuffer.java: checkPut, checkGet", "classpath/java/nio/Buffer.java: position, limit", "classpath/java/nio/DirectByteBuffer.java: get, slice, put"]}
{"id": "C167", "title": "LinkedHashMap keeps the order of insertion", "statement": "Iterating a LinkedHashMap gives every key once, in the order in which it was first put since it was last absent, with its latest value, and ends; put, get and remove answer as for any map; remove of an iterator removes the entry that its last next() gave.", "quantifier": "all histories of put, get, remove, clear and iteration in which no key is removed that was in the map before and no longer is", "why_tests_cant": "every order of insertion and removal links the cells differently", "anchors": ["classpath/java/util/LinkedHashMap.java: put, remove, clear, MyIterator"]}
{"id": "C168", "title": "LinkedHashMap: removing an absent key", "statement": "Removing a key that is not in a LinkedHashMap changes nothing.", "quantifier": "all histories of calls", "why_tests_cant": "only keys that were there before, in certain orders, show it", "anchors": ["classpath/java/util/LinkedHashMap.java: remove, clear"]}
{"id": "C169", "title": "Random numbers", "statement": "From every seed java.util.Random goes through all 2^48 states before it repeats; nextInt(limit) ends from every state and gives a number from 0 to limit - 1, each by the same number of the possible draws; nextDouble is a multiple of 2^-53 in [0, 1); nextBytes gives the bytes of successive nextInt() from the lowest on, for every length.", "quantifier": "all seeds, all states, all limits above 0, all lengths", "why_tests_cant": "2^48 states times 2^31 limits; the loop of nextInt(limit) has no bound", "anchors": ["classpath/java/util/Random.java: next, nextInt, nextDouble, nextBytes, setSeed"]}
{"id": "C170", "title": "StringTokenizer gives the tokens", "statement": "nextToken gives the maximal runs of characters that are not delimiters, in order, then throws NoSuchElementException; hasMoreTokens says whether any is left and countTokens how many, whatever the order of the calls.", "quantifier": "all texts, all sets of delimiters, all sequences of calls", "why_tests_cant": "every arrangement of delimiters and every interleaving of the calls", "anchors": ["classpath/java/util/StringTokenizer.java: nextToken, hasMoreTokens, countTokens"]}
{"id": "C171", "title": "StringTokenizer with delimiters as tokens", "statement": "When delimiters are to be tokens, nextToken gives them each once in their places; hasMoreTokens does not change what a later nextToken gives.", "quantifier": "all texts, sets of delimiters and sequences of calls", "why_tests_cant": "it depends on where delimiters are and when the set is changed", "anchors": ["classpath/java/util/StringTokenizer.java: nextToken, hasMoreTokens"]}
{"id": "C172", "title": "Shuffling a list", "statement": "Collections.shuffle ends and leaves the same elements in some order; every order can come out.", "quantifier": "all lists, all states of the Random", "why_tests_cant": "every list and every sequence of numbers drawn", "anchors": ["classpath/java/util/Collections.java: shuffle", "classpath/java/util/Random.java: nextInt"]}
{"id": "C173", "title": "Shuffling is fair", "statement": "Every order of the list is equally likely after Collections.shuffle.", "quantifier": "all lists of distinct elements, all sequences of numbers drawn", "why_tests_cant": "a bias shows only in the long run", "anchors": ["classpath/java/util/Collections.java: shuffle"]}
{"id": "C174", "title": "CRC32 is the checksum of zip", "statement": "Along every sequence of update, reset and getValue, getValue returns the CRC-32 (ISO 3309, RFC 1952) of the bytes given since the beginning or the last reset, in whatever pieces they came; no call leaves the table.", "quantifier": "all sequences of calls, all bytes, all lengths", "why_tests_cant": "there is no bound on the data, and a wrong table entry or a wrong shift shows only for some of it", "anchors": ["classpath/java/util/zip/CRC32.java: update, reset, getValue, reflect"]}
{"id": "C175", "title": "Properties: plain entries survive", "statement": "For a comment of one line and keys and values that need no escape, Properties.load of what Properties.store wrote puts the same entries in the same order. A line of such a key, a separator (blanks, : or = with blanks around) and such a value gives that entry.", "quantifier": "all lists of entries with plain keys and values of any length, all comments of one line", "why_tests_cant": "there is no bound on the keys, the values and their number; each character is treated by the state of the line so far", "anchors": ["classpath/java/util/Properties.java: store, load", "classpath/java/util/Properties.java: Parser.parse"]}
{"id": "C176", "title": "Properties: all entries survive", "statement": "Properties.load of what Properties.store wrote gives the same entries, for any strings as keys and values.", "quantifier": "all lists of entries", "why_tests_cant": "every character in every place of a key or a value", "anchors": ["classpath/java/util/Properties.java: store, load", "classpath/java/util/Properties.java: Parser.parse"]}
{"id": "C177", "title": "Properties: escapes", "statement": "In Properties.load a backslash at the end of a line joins it with the next, and a backslash before # or ! at the beginning of a line makes it part of the key.", "quantifier": "all texts", "why_tests_cant": "every text with escapes", "anchors": ["classpath/java/util/Properties.java: store, load", "classpath/java/util/Properties.java: Parser.parse"]}
{"id": "C178", "title": "ZipFile reads the bytes of the file", "statement": "Along every sequence of reads of a zip file through its buffer, the bytes shown are those of the file at the place asked for; a read is refused only when it leaves the file or is larger than the buffer.", "quantifier": "all files, all sizes of the buffer, all sequences of places and lengths, with no failure of the disk", "why_tests_cant": "which part of the file is in the buffer depends on all reads before", "anchors": ["classpath/java/util/zip/ZipFile.java: Window.seek", "classpath/java/util/zip/ZipFile.java: get2, get4, entryName"]}
{"id": "C179", "title": "ZipFile after a failed read", "statement": "The same when some reads of the disk fail: a read that succeeds shows the bytes of the file.", "quantifier": "all files, all sequences of reads, all failures of the disk", "why_tests_cant": "a failure can come at any read, and the wrong bytes show only at a later one", "anchors": ["classpath/java/util/zip/ZipFile.java: Window.seek", "classpath/java/util/zip/ZipFile.java: get2, get4, entryName"]}
