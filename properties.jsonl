{"id": "C01", "title": "Seq behaves as a list", "statement": "After any history of SeqNew/Append/AppendOnce/AppendSeq/Set/Remove/RemoveRange/SoftRemove(Range)/Clear/Reverse/Split/GetRange/RemoveNulls calls whose indices are in range, SeqLength and SeqAt observe exactly the list obtained by the corresponding list operations, no array cell outside the allocation or never written is accessed, and reallocation never loses or reorders items.", "quantifier": "all initial capacities, all items, all finite operation histories with in-range indices", "why_tests_cant": "A test runs a handful of histories; the claim is about every history of any length and every item value.", "anchors": ["libutils/sequence.c:SeqNew,SeqAppend,SeqSet,SeqRemoveRange,SeqSoftRemoveRange,SeqReverse,SeqSplit,SeqGetRange,SeqRemoveNulls,SeqAppendOnce,SeqAppendSeq"]}
{"id": "C02", "title": "Seq destroys every owned item exactly once", "statement": "Over any history, the ItemDestroy callback is called exactly once for every item overwritten by SeqSet, removed by SeqRemove/SeqRemoveRange/SeqClear, swallowed by SeqAppendOnce or present at SeqDestroy, in index order, and never for an item still stored or softly removed: appended items = destroyed + softly removed + still stored (as multisets).", "quantifier": "all operation histories", "why_tests_cant": "Double frees and leaks show up only on particular histories.", "anchors": ["libutils/sequence.c:DestroyRange,SeqSet,SeqRemoveRange,SeqSoftRemoveRange,SeqDestroy,SeqAppendOnce"]}
{"id": "C03", "title": "SeqSort sorts", "statement": "For every comparator that is a total preorder, SeqSort terminates, touches only cells of the sequence and leaves a sorted permutation of the input; SeqSoftSort leaves its argument unchanged and returns such a permutation. For a comparator that is not a total preorder the sort may run outside the array.", "quantifier": "all sequences of any length, all comparators", "why_tests_cant": "Quicksort partition errors need specific value patterns; comparators are arbitrary functions.", "anchors": ["libutils/sequence.c:QuickSortRecursive,SeqSort,SeqSoftSort"]}
{"id": "C04", "title": "SeqBinaryIndexOf agrees with linear search", "statement": "On a sequence sorted w.r.t. the comparator, SeqBinaryIndexOf returns an in-range index whose item compares equal to the key iff some item does, and -1 otherwise; SeqBinaryLookup returns that item or NULL; SeqIndexOf/SeqLookup return the first matching index/item on any sequence.", "quantifier": "all sorted sequences, keys and comparators", "why_tests_cant": "Off-by-one errors in bisection depend on length and position.", "anchors": ["libutils/sequence.c:SeqBinaryIndexOf,SeqBinaryLookup,SeqIndexOf,SeqLookup"]}
{"id": "C05", "title": "SeqShuffle permutes", "statement": "SeqShuffle leaves a permutation of the items, stays in bounds for every stream of random numbers, can produce every permutation for some stream of numbers, and SeqReverse is the list reversal.", "quantifier": "all sequences and all random streams", "why_tests_cant": "A test sees one seed.", "anchors": ["libutils/sequence.c:SeqShuffle,SeqReverse,Swap"]}
{"id": "C06", "title": "Map is a finite map", "statement": "After any history of MapInsert/MapRemove/MapClear, MapGet, MapHasKey, and the boolean results of MapInsert (replaced) and MapRemove (found) are those of a finite map keyed by the equality callback, across the array-to-hash conversion at 14 entries and every grow/shrink rehash.", "quantifier": "all histories, all keys/values, every equality that is an equivalence and every hash function compatible with it", "why_tests_cant": "Rehash and conversion bugs need specific sizes and collision patterns; hash functions are arbitrary.", "anchors": ["libutils/map.c:MapInsert,MapGet,MapHasKey,MapRemove,MapClear,ConvertToHashMap", "libutils/hash_map.c:HashMapInsert,HashMapRemove,HashMapResize,HashMapGet", "libutils/array_map.c:ArrayMapInsert,ArrayMapRemove,ArrayMapGet"]}
{"id": "C07", "title": "Map destroys keys and values exactly once", "statement": "Over any history ending in MapDestroy, each inserted key and each inserted value is passed to its destroy callback exactly once (replaced entries at replacement, removed entries at removal, the rest at MapClear/MapDestroy); MapSoftDestroy destroys keys only.", "quantifier": "all histories", "why_tests_cant": "A leak or double free needs a particular history across resize.", "anchors": ["libutils/map.c:MapInsert,MapRemove,MapClear,MapDestroy,MapSoftDestroy", "libutils/hash_map.c:FreeBucketListItem", "libutils/array_map.c:ArrayMapClear"]}
{"id": "C08", "title": "Map iteration, size and key-set comparison", "statement": "MapSize equals the number of distinct keys; a full MapIterator pass yields each stored entry exactly once; MapContainsSameKeys is true iff the two maps hold the same keys; the hash table's load counter always equals the number of entries and its size stays a power of two within its bounds.", "quantifier": "all reachable pairs of maps", "why_tests_cant": "Iteration order and bucket layout depend on the hash.", "anchors": ["libutils/map.c:MapSize,MapIteratorNext,MapContainsSameKeys", "libutils/hash_map.c:HashMapIteratorNext", "libutils/set.c:SetIsEqual,SetSize,SetJoin"]}
{"id": "C09", "title": "StringSet split and join", "statement": "StringSetFromString(s,d) contains exactly the d-separated pieces of s (except a trailing empty piece), and StringSetToBuffer followed by StringSetFromString with the same delimiter gives back the same set whenever no element contains the delimiter and the element iterated last is not empty.", "quantifier": "all strings, delimiters and sets", "why_tests_cant": "Edge cases (empty pieces, trailing delimiter) are unbounded.", "anchors": ["libutils/set.c:StringSetAddSplit,StringSetFromString,StringSetToBuffer"]}
{"id": "C10", "title": "RBTree is an ordered map", "statement": "After any history of RBTreePut/RBTreeRemove/RBTreeClear, RBTreeGet, the boolean results, RBTreeSize and the RBTreeIterator (ascending, each entry once) are those of a finite map sorted by the comparison callback.", "quantifier": "all histories, all keys, every comparator that is a total preorder", "why_tests_cant": "Rebalancing cases depend on history.", "anchors": ["libutils/rb-tree.c:RBTreePut,RBTreeGet,RBTreeRemove,RBTreeClear,RBTreeSize,RBTreeIteratorNext,PutFix_,RemoveFix_,RotateLeft_,RotateRight_"]}
{"id": "C11", "title": "RBTree stays balanced", "statement": "After any history no red node has a red child and all root-to-leaf paths carry the same number of black nodes, so the tree height is at most 2*log2(size+1).", "quantifier": "all histories", "why_tests_cant": "Violations need particular removal patterns.", "anchors": ["libutils/rb-tree.c:PutFix_,RemoveFix_"]}
{"id": "C12", "title": "RBTreeCopy copies", "statement": "RBTreeCopy with an accept-all filter yields a tree with the same entries as its argument; with a filter, exactly the accepted entries.", "quantifier": "all trees and filters", "why_tests_cant": "Depends on the number of accepted nodes (parity) for every size.", "anchors": ["libutils/rb-tree.c:RBTreeCopy,RBTreeEqual"]}
{"id": "C13", "title": "RingBuffer keeps the last items", "statement": "After any history of RingBufferAppend/Clear on a buffer of capacity n, RingBufferLength is min(n, appends since last clear), RingBufferHead is the last appended item or NULL, a full iterator pass yields the retained items oldest to newest, and each evicted or cleared item is destroyed exactly once.", "quantifier": "all capacities>0 and all histories", "why_tests_cant": "Wrap-around position is unbounded.", "anchors": ["libutils/ring_buffer.c:RingBufferAppend,RingBufferHead,RingBufferIteratorNext,RingBufferClear,RingBufferLength,RingBufferIsFull"]}
{"id": "C14", "title": "Stack is LIFO", "statement": "After any history of StackPush/StackPushReportCount/StackPop, the results are those of a LIFO list; StackPop on an empty stack returns NULL; growth never loses items.", "quantifier": "all histories", "why_tests_cant": "Growth boundaries recur for ever.", "anchors": ["libutils/stack.c", "libutils/stack_base.c"]}
{"id": "C15", "title": "Queue is FIFO", "statement": "After any history of QueueEnqueue/QueueDequeue/QueueHead/QueueCount that never dequeues an empty queue, the results are those of a FIFO list; dequeuing an empty queue dereferences NULL.", "quantifier": "all histories", "why_tests_cant": "Unbounded histories.", "anchors": ["libutils/queue.c"]}
{"id": "C16", "title": "ThreadedQueue is a FIFO across growth and wrap", "statement": "Every sequential history of ThreadedQueuePush/Pop/PopN/PushN/Clear/ClearAndPush/Count/Copy/Destroy (started from any capacity) returns what a FIFO list returns, counts are exact, no cell outside the ring is touched, and every item cleared or present at destroy is destroyed exactly once.", "quantifier": "all capacities and histories", "why_tests_cant": "The wrap position times growth combination space is unbounded.", "anchors": ["libutils/threaded_queue.c:ThreadedQueuePush,ThreadedQueuePop,ThreadedQueuePopN,ThreadedQueuePushN,ThreadedQueueClear,ThreadedQueueClearAndPush,ThreadedQueueCopy,ExpandIfNecessary,DestroyRange"]}
{"id": "C17", "title": "Threaded containers are linearizable", "statement": "For every number of threads, every program per thread and every schedule of lock acquisitions, each call's result equals the result in the sequential FIFO/deque/stack execution in lock-acquisition order; hence no item is lost, duplicated or reordered and critical sections never overlap. A copy holds exactly the items the container had at one instant between call and return, and taking it changes nothing.", "quantifier": "all schedules, all threads, all programs", "why_tests_cant": "Schedules cannot be enumerated by tests.", "anchors": ["libutils/threaded_queue.c", "libutils/threaded_deque.c", "libutils/threaded_stack.c"]}
{"id": "C18", "title": "Blocked consumers wake when items are available", "statement": "A consumer blocked in ThreadedQueuePop/PopN with THREAD_BLOCK_INDEFINITELY is woken whenever the queue holds an item that no other awake consumer is about to take.", "quantifier": "all schedules", "why_tests_cant": "Lost wake-ups depend on the schedule.", "anchors": ["libutils/threaded_queue.c:ThreadedQueuePushN,ThreadedQueuePop,ThreadedQueuePopN,ThreadedQueuePush"]}
{"id": "C19", "title": "ThreadedDeque is a double-ended queue", "statement": "Every sequential history of pushes and pops at both ends, PopN at both ends, Count, IsEmpty and Copy behaves as a list with two ends, across growth and wrap in both directions, within bounds, and destroying the deque destroys exactly the items left, once each.", "quantifier": "all capacities and histories", "why_tests_cant": "Wrap in two directions times growth.", "anchors": ["libutils/threaded_deque.c"]}
{"id": "C20", "title": "List copies are isolated", "statement": "After ListCopy, mutating one list (ListAppend/Prepend/Remove, ListMutableIterator operations) never changes what an observer of the other list sees.", "quantifier": "all histories over any number of copies", "why_tests_cant": "Aliasing depends on which lists share nodes at each step.", "anchors": ["libutils/list.c:ListCopy,ListDetach,ListAppend,ListPrepend,ListRemove,ListMutableIteratorRemove", "libutils/refcount.c"]}
{"id": "C21", "title": "Buffer holds the bytes written to it", "statement": "After any history of BufferSet/Append/AppendChar/AppendString/Clear/TrimToMaxLength/ChopEnd..., BufferSize and BufferData are the concatenation of what was written, used < capacity always holds, no byte outside the allocation is written, and in C-string mode the data is NUL-terminated at BufferSize.", "quantifier": "all histories, all byte contents", "why_tests_cant": "Growth boundaries at every power of two.", "anchors": ["libutils/buffer.c"]}
{"id": "C22", "title": "BufferCompare is a total order", "statement": "BufferCompare returns 0 iff the contents are equal, is antisymmetric and transitive, and its sign agrees with strcmp as documented, in every mix of modes.", "quantifier": "all pairs/triples of buffers", "why_tests_cant": "Order laws quantify over triples.", "anchors": ["libutils/buffer.c:BufferCompare"]}
{"id": "C23", "title": "StringWriter concatenates", "statement": "The data of a string writer is always the concatenation of everything written, NUL-terminated, and growth never writes out of bounds.", "quantifier": "all histories of writes", "why_tests_cant": "Growth boundaries.", "anchors": ["libutils/writer.c:StringWriterWriteLen,StringWriterReallocate,WriterWriteF"]}
{"id": "C24", "title": "CSV write/parse round trip", "statement": "For every record of NUL-free fields, the line produced by CsvWriter parses with SeqParseCsvString into exactly those fields.", "quantifier": "all records with any number of fields and any bytes except NUL", "why_tests_cant": "Quoting/escaping combinations are unbounded.", "anchors": ["libutils/csv_writer.c:WriteCsvField,CsvWriterField", "libutils/csv_parser.c:SeqParseCsvString,LaunchCsvAutomata"]}
{"id": "C25", "title": "CSV files split into their records", "statement": "Reading a file written by CsvWriter with GetCsvLineNext yields exactly the written records in order, even when fields contain CRLF.", "quantifier": "all lists of records", "why_tests_cant": "Unbounded nesting of quotes and newlines.", "anchors": ["libutils/csv_parser.c:GetCsvLineNext", "libutils/csv_writer.c"]}
{"id": "C26", "title": "CSV parser rejects malformed input and never reads stale memory", "statement": "For every input string, SeqParseCsvString either returns the fields of a grammatically valid record or NULL, and never returns text belonging to another field or uninitialised memory.", "quantifier": "all input strings", "why_tests_cant": "Inputs are unbounded; the automaton has 8 states with stale buffers.", "anchors": ["libutils/csv_parser.c:LaunchCsvAutomata"]}
{"id": "C27", "title": "XML escaping is safe and reversible", "statement": "Text written by XmlContent contains no raw < > & and quotes, decoding the five entities gives back the text; attribute values written by XmlStartTag/XmlTag are equally safe.", "quantifier": "all strings", "why_tests_cant": "Any byte may need escaping.", "anchors": ["libutils/xml_writer.c:WriteEscaped,XmlEmitStartTag,XmlContent"]}
{"id": "C28", "title": "String sequence serialization round trip", "statement": "SeqStringDeserialize(SeqStringSerialize(s)) returns the same strings for every sequence of strings (each shorter than 10^9 bytes), deserialization never reads past the given string and rejects corrupted length prefixes.", "quantifier": "all sequences of strings", "why_tests_cant": "Embedded digits/newlines/length boundaries.", "anchors": ["libutils/string_sequence.c:SeqStringSerialize,SeqStringDeserialize,GetLengthPrefix,ValidDuplicate"]}
{"id": "C29", "title": "StringSafeCompare is a total order", "statement": "StringSafeCompare returns only -1/0/1, is a total order on strings with NULL smallest; StringEqual and its variants agree with it; the case-insensitive and length-limited variants are the same order on folded/truncated strings.", "quantifier": "all strings or NULL", "why_tests_cant": "Order laws quantify over triples.", "anchors": ["libutils/string_lib.c:StringSafeCompare,StringSafeEqual,StringSafeCompareN,StringSafeCompare_IgnoreCase"]}
{"id": "C30", "title": "Search and replace", "statement": "SearchAndReplace replaces every non-overlapping leftmost occurrence; StringReplace does so in place and returns the length of the result, returns 0 if nothing was found and -1, leaving the buffer untouched, when the result would not fit; neither writes out of bounds.", "quantifier": "all strings, needles, replacements, buffer sizes", "why_tests_cant": "Overlap and boundary combinations.", "anchors": ["libutils/string_lib.c:SearchAndReplace,StringReplace,StringReplaceN,ReplaceChar"]}
{"id": "C31", "title": "Numeric parsing is exact", "statement": "StringToLong/StringToInt64/StringToUlong accept exactly texts that start with a decimal numeral in range (optional leading white space and sign) followed by the end or white space, and return its value; any other string is rejected with the documented error and nothing is stored; StringDecimalToLong does so for the part before a dot; StringFromLong and StringToLong are inverse.", "quantifier": "all strings", "why_tests_cant": "All numerals incl. range limits.", "anchors": ["libutils/string_lib.c:StringToLong,StringToInt64,StringToUlong,StringFromLong,StringDecimalToLong"]}
{"id": "C32", "title": "EscapeCharCopy is memory safe and reversible", "statement": "EscapeCharCopy(str, to_escape, escape_with) never writes outside its allocation, terminates, and unescaping the result gives back str.", "quantifier": "all strings and characters", "why_tests_cant": "Only particular patterns overflow.", "anchors": ["libutils/string_lib.c:EscapeCharCopy,CountChar"]}
{"id": "C33", "title": "StringSubstring returns the requested slice", "statement": "StringSubstring(source, source_len, start, len) returns the slice denoted by Python-like start/len (negative from the end), and never reads outside the source.", "quantifier": "all strings, starts and lengths", "why_tests_cant": "Sign and boundary combinations.", "anchors": ["libutils/string_lib.c:StringSubstring"]}
{"id": "C34", "title": "Bounded concatenation never overflows", "statement": "StringAppend, StrCat, StrCatDelim, StringAppendPromise-like helpers, PathAppend and libcompat strlcpy/strlcat write only inside the given buffer, keep it NUL-terminated, and report truncation exactly when the full result does not fit.", "quantifier": "all strings, offsets and buffer sizes", "why_tests_cant": "Boundary at every size.", "anchors": ["libutils/string_lib.c:StringAppend,StrCat,StrCatDelim,PathAppend", "libcompat/strlcpy.c", "libcompat/strlcat.c"]}
{"id": "C35", "title": "Trimming", "statement": "TrimWhitespace, StripTrailingNewline, Chop and TrimCSVLineCRLF remove exactly the white space / line end documented and nothing else, in place and in bounds.", "quantifier": "all strings and maximum lengths", "why_tests_cant": "All white space layouts.", "anchors": ["libutils/string_lib.c:TrimWhitespace,StripTrailingNewline,Chop,TrimCSVLineCRLF"]}
{"id": "C36", "title": "Tokenization", "statement": "StringCountTokens(s,seps) is the number of maximal runs of non-separators, and StringGetToken(s,i,seps) is the i-th run; StringSplit-style helpers (String2StringArray) produce the pieces in order.", "quantifier": "all strings, separator sets, indices", "why_tests_cant": "Unbounded strings.", "anchors": ["libutils/string_lib.c:StringCountTokens,StringGetToken,String2StringArray"]}
{"id": "C37", "title": "Path joining and basename", "statement": "Path_JoinAlloc(dir, leaf) puts one separator between the parts unless dir already ends with one, and Path_Basename of it is the leaf whenever the leaf has no separator; Path_Basename is the suffix after the last separator. Path_GetQuoted returns safe or quoted paths unchanged, puts quotes around the others and is idempotent.", "quantifier": "all paths", "why_tests_cant": "Unbounded strings.", "anchors": ["libutils/path.c:Path_Basename,Path_JoinAlloc,Path_GetQuoted"]}
{"id": "C38", "title": "UpperPowerOfTwo", "statement": "UpperPowerOfTwo(v) is the least power of two >= v.", "quantifier": "all size_t values", "why_tests_cant": "2^64 inputs.", "anchors": ["libutils/misc_lib.c:UpperPowerOfTwo"]}
{"id": "C39", "title": "UnsignedModulus", "statement": "UnsignedModulus(a,b) is the mathematical a mod b in [0,b) for b>0, with no signed overflow.", "quantifier": "all longs", "why_tests_cant": "2^128 inputs.", "anchors": ["libutils/misc_lib.c:UnsignedModulus"]}
{"id": "C40", "title": "Version comparison is an order", "statement": "CompareVersion is the lexicographic comparison of the numeric components both versions have, antisymmetric for all texts, and a total order on versions with major, minor and patch.", "quantifier": "all pairs/triples of strings", "why_tests_cant": "Triples of strings.", "anchors": ["libutils/version_comparison.c:CompareVersion"]}
{"id": "C41", "title": "IPv4 parse and print", "statement": "Every dotted quad of octets 0..255 with optional port 0..65535 is accepted and stored exactly; printing gives the canonical text; parsing the printed text returns the same address.", "quantifier": "all 2^48 addresses/ports and all zero-padded spellings", "why_tests_cant": "Too many inputs.", "anchors": ["libutils/ip_address.c:IPV4_parser,IPAddressNew,IPAddressGetAddress,IPAddressGetAddressAsString"]}
{"id": "C42", "title": "IPv4 rejects everything else", "statement": "A string is accepted as IPv4 only if it is a dotted quad with optional port in range.", "quantifier": "all strings", "why_tests_cant": "Unbounded inputs.", "anchors": ["libutils/ip_address.c:IPV4_parser"]}
{"id": "C43", "title": "IP address comparison", "statement": "IPAddressIsEqual is an equivalence and IPAddressCompareLess a strict total order on valid addresses of one family that agrees with it.", "quantifier": "all pairs/triples of addresses", "why_tests_cant": "Order laws quantify over triples.", "anchors": ["libutils/ip_address.c:IPAddressIsEqual,IPAddressCompareLess"]}
{"id": "C44", "title": "IPv6 parse", "statement": "Every full (8-group) and every ::-compressed IPv6 text, plain or bracketed with port, is stored as the groups it denotes.", "quantifier": "all texts", "why_tests_cant": "Position of :: times number of groups times brackets.", "anchors": ["libutils/ip_address.c:IPV6_parser"]}
{"id": "C45", "title": "JSON string escaping round trip", "statement": "JsonDecodeString(JsonEncodeString(s)) = s for every NUL-free string, and the encoded text has no unescaped quote or raw control newline/tab.", "quantifier": "all strings", "why_tests_cant": "All byte strings.", "anchors": ["libutils/json.c:JsonEncodeString,JsonDecodeString"]}
{"id": "C46", "title": "JSON write/parse round trip", "statement": "For every JSON tree built through the API, parsing the output of JsonWrite (pretty) or JsonWriteCompact returns JSON_PARSE_OK and an equal tree.", "quantifier": "all trees of any depth and width", "why_tests_cant": "Unbounded nesting and strings.", "anchors": ["libutils/json.c:JsonWrite,JsonWriteCompact,JsonParse"]}
{"id": "C47", "title": "JSON objects have unique keys and map semantics", "statement": "After any history of append/remove/get on an object, each key occurs once, JsonObjectGet returns the last value appended for the key, and JsonLength counts distinct keys; arrays behave as lists.", "quantifier": "all histories", "why_tests_cant": "Unbounded histories.", "anchors": ["libutils/json.c:JsonObjectAppendElement,JsonObjectRemoveKey,JsonObjectGet,JsonArrayAppendElement,JsonObjectMergeDeepInplace,JsonMerge"]}
{"id": "C48", "title": "JSON output is canonical", "statement": "Two objects with the same key/value pairs appended in different orders are written as identical text, with keys in ascending order.", "quantifier": "all permutations of all objects", "why_tests_cant": "n! orders.", "anchors": ["libutils/json.c:JsonObjectWrite,JsonObjectWriteCompact,JsonElementComparePropertyNames? (CompareKeyToPropertyName)"]}
{"id": "C49", "title": "JsonCopy and JsonCompare", "statement": "JsonCopy returns an equal independent tree; JsonCompare returns 0 iff the two trees are equal.", "quantifier": "all trees", "why_tests_cant": "Unbounded trees.", "anchors": ["libutils/json.c:JsonCopy,JsonCompare"]}
{"id": "C50", "title": "JSON parser is memory safe on any input", "statement": "For every input string JsonParse terminates, never reads past the terminating NUL, and either fails or returns a well-formed tree.", "quantifier": "all strings", "why_tests_cant": "Unbounded inputs.", "anchors": ["libutils/json.c:JsonParse,JsonParseAsString,JsonParseAsNumber"]}
{"id": "C51", "title": "Mustache escapes and scopes", "statement": "Text without tags is copied verbatim, {{x}} is HTML-escaped while {{{x}}} and {{&x}} are not, sections over arrays render once per element, and after a section the enclosing scope is restored.", "quantifier": "all templates and data", "why_tests_cant": "Unbounded nesting.", "anchors": ["libutils/mustache.c"]}
{"id": "C52", "title": "Full reads and writes", "statement": "FullWrite writes exactly the given bytes in order for every pattern of short writes and EINTR, or reports an error; FullRead returns exactly the bytes available up to the requested size.", "quantifier": "all schedules of partial I/O results", "why_tests_cant": "Short I/O patterns are controlled by the kernel.", "anchors": ["libutils/file_lib.c:FullWrite,FullRead"]}
{"id": "C53", "title": "Cleanup functions run once in LIFO order", "statement": "Every registered cleanup function is called exactly once, last registered first.", "quantifier": "all histories", "why_tests_cant": "Unbounded.", "anchors": ["libutils/cleanup.c"]}
{"id": "C54", "title": "RefCount", "statement": "RefCountAttach/Detach keep the user count equal to the number of attached owners, RefCountIsShared is true iff more than one owner is attached.", "quantifier": "all histories", "why_tests_cant": "Unbounded histories.", "anchors": ["libutils/refcount.c"]}
{"id": "C55", "title": "Hex and canonical names", "statement": "StringBytesToHex is injective and produces two hex digits per byte; StringCanonify/CanonifyName maps every byte outside [A-Za-z0-9_] to '_' and preserves length.", "quantifier": "all byte strings", "why_tests_cant": "All strings.", "anchors": ["libutils/string_lib.c:StringBytesToHex,StringCanonify"]}
{"id": "C56", "title": "RBTree destroys each key and value exactly once", "statement": "Over any history of put/remove/clear followed by destroy, the destroy callbacks receive exactly the keys and values handed to RBTreePut, each once, and nothing else.", "quantifier": "all histories", "why_tests_cant": "Double free or leak depends on the history.", "anchors": ["libutils/rb-tree.c:RBTreePut,RBTreeRemove,RBTreeClear,RBTreeDestroy"]}
{"id": "C57", "title": "RBTreeEqual", "statement": "RBTreeEqual(a,b) is true iff both trees hold the same entries (equal keys and equal values in the supplied orders), however the trees were built.", "quantifier": "all pairs of histories", "why_tests_cant": "Trees with equal contents have many shapes.", "anchors": ["libutils/rb-tree.c:RBTreeEqual"]}
{"id": "C58", "title": "Prefix, suffix and option matching", "statement": "StringStartsWith, StringEndsWith, StringEndsWithCase and StringMatchesOption decide exactly whether the text has the given prefix/suffix (case-folded where documented) or abbreviates the option.", "quantifier": "all strings", "why_tests_cant": "All strings.", "anchors": ["libutils/string_lib.c:StringStartsWith,StringEndsWith,StringEndsWithCase,StringMatchesOption"]}
{"id": "C59", "title": "StringConcatenate", "statement": "StringConcatenate(count, ...) returns a freshly allocated string that is the concatenation of its non-NULL arguments in order.", "quantifier": "all argument lists", "why_tests_cant": "All lists.", "anchors": ["libutils/string_lib.c:StringConcatenate"]}
{"id": "C60", "title": "Case conversion in place", "statement": "ToLowerStrInplace and ToUpperStrInplace change exactly the letters of the other case and keep the length.", "quantifier": "all strings", "why_tests_cant": "All strings.", "anchors": ["libutils/string_lib.c:ToUpper,ToUpperStrInplace,ToLowerStrInplace"]}
{"id": "C61", "title": "Character scanning and replacing helpers", "statement": "ReplaceChar, ReplaceTrailingChar, StringCloseHole, memcchr, StringIsNumeric, StringIsPrintable, EmptyString, StringNotMatchingSetCapped and ScanPastChars compute their documented result and stay within the given buffers.", "quantifier": "all strings, sizes and characters", "why_tests_cant": "All strings and all buffer sizes.", "anchors": ["libutils/string_lib.c:ReplaceChar,ReplaceTrailingChar,StringCloseHole,memcchr,StringIsNumeric,StringIsPrintable,EmptyString,StringNotMatchingSetCapped,ScanPastChars"]}
{"id": "C62", "title": "Reading a file into a string", "statement": "FileRead/FileReadFromFd return the first max_size bytes of the file as a string for every pattern of short reads and interruptions, and set *truncated exactly when the file is longer than that.", "quantifier": "all files, limits and kernel schedules", "why_tests_cant": "Chunk boundaries are chosen by the kernel.", "anchors": ["libutils/file_lib.c:FileRead,FileReadFromFd"]}
{"id": "C63", "title": "Sparse copies are exact", "statement": "FileSparseCopy followed by FileSparseClose leaves a destination with exactly the bytes of the source, whatever runs of NUL bytes it has and however reads and writes are cut, or reports failure.", "quantifier": "all file contents, block sizes and kernel schedules", "why_tests_cant": "Holes depend on block alignment and the kernel's schedule.", "anchors": ["libutils/file_lib.c:FileSparseWrite,FileSparseCopy,FileSparseClose"]}
{"id": "C64", "title": "String sequence helpers", "statement": "SeqStringFromString splits at every delimiter, SeqStringContains decides membership, SeqStringLength is the total length.", "quantifier": "all strings, delimiters and sequences", "why_tests_cant": "All strings.", "anchors": ["libutils/string_sequence.c:SeqStringFromString,SeqStringContains,SeqStringLength"]}
{"id": "C65", "title": "File name predicates", "statement": "IsAbsoluteFileName is true exactly for names that start with the separator after any leading quotes; MapNameForward turns every backslash into a slash and changes nothing else.", "quantifier": "all names", "why_tests_cant": "All strings.", "anchors": ["libutils/file_lib.c:IsAbsoluteFileName,MapNameForward"]}
{"id": "C66", "title": "Hexadecimal addresses", "statement": "IPAddressNewHex reads the procfs notation: 8 hexadecimal digits are the four octets of an IPv4 address (last pair first), 32 digits the eight groups of an IPv6 address, each optionally followed by a colon and a 4-digit port; everything else is rejected and the port is 0 when absent.", "quantifier": "all texts", "why_tests_cant": "All strings of the accepted lengths.", "anchors": ["libutils/ip_address.c:IPAddressNewHex,IPV4_hex_parser,IPV6_hex_parser,IPAddressGetPort"]}
{"id": "C67", "title": "Walking a JSON tree", "statement": "JsonWalk asks the visitor of each element's kind exactly once per element, parents before children and children in order, stops at the first visitor that answers false and then returns false, and otherwise returns true.", "quantifier": "all trees, all visitors and visitor states", "why_tests_cant": "Trees are unbounded and visitors are arbitrary functions.", "anchors": ["libutils/json.c:JsonWalk"]}
{"id": "C68", "title": "Selecting in a JSON tree", "statement": "JsonSelect returns the element reached by following the indices (member names in objects, decimal positions in arrays) and NULL exactly when there is none; it never crashes or exits on an index.", "quantifier": "all trees and all paths", "why_tests_cant": "All trees and all paths.", "anchors": ["libutils/json.c:JsonSelect"]}
{"id": "C69", "title": "JSON5 data escaping", "statement": "Json5EscapeData turns any bytes, NUL included, into printable ASCII that is a JSON5 string body denoting exactly these bytes; different data give different texts.", "quantifier": "all byte sequences", "why_tests_cant": "All byte sequences.", "anchors": ["libutils/json.c:Json5EscapeData,Json5EscapeDataWriter"]}
{"id": "C70", "title": "Substring search replacements", "statement": "memmem, strstr and strcasestr (libcompat) return the first occurrence of the needle (ignoring case for strcasestr) and NULL exactly when there is none, reading only the given areas; an empty needle occurs at offset 0.", "quantifier": "all haystacks and needles, including empty ones", "why_tests_cant": "All pairs of byte strings.", "anchors": ["libcompat/memmem.c:memmem", "libcompat/strstr.c:strstr", "libcompat/strcasestr.c:strcasestr"]}
{"id": "C71", "title": "Last occurrence of a string", "statement": "strrstr (libcompat) returns the last occurrence of the pattern and NULL exactly when it does not occur.", "quantifier": "all pairs of strings", "why_tests_cant": "All pairs of strings.", "anchors": ["libcompat/strrstr.c:strrstr"]}
{"id": "C72", "title": "Scanning and duplicating replacements", "statement": "memrchr, strnlen, strndup, strdup, memdup, strchrnul and stpncpy (libcompat) compute what their C library namesakes do, read no byte beyond the given bound or terminator and write only what they document.", "quantifier": "all strings, areas and bounds, terminated or not", "why_tests_cant": "All strings and bounds.", "anchors": ["libcompat/memrchr.c:memrchr", "libcompat/strnlen.c:strnlen", "libcompat/strndup.c:strndup", "libcompat/strdup.c:strdup", "libcompat/memdup.c:memdup", "libcompat/strchrnul.c:strchrnul", "libcompat/stpncpy.c:stpncpy"]}
{"id": "C73", "title": "Case-insensitive comparison replacements", "statement": "strcasecmp and strncasecmp (libcompat) compare the (cut) strings by their lower-case forms, for every pair of strings.", "quantifier": "all pairs of strings and all bounds", "why_tests_cant": "All pairs of strings.", "anchors": ["libcompat/strcasecmp.c:strcasecmp", "libcompat/strncasecmp.c:strncasecmp"]}
{"id": "C74", "title": "strsep", "statement": "Calling strsep (libcompat) until it returns NULL delivers exactly the pieces of the string between delimiter characters, empty ones included, each terminated in place, and writes nothing but a NUL over each delimiter.", "quantifier": "all strings and delimiter sets", "why_tests_cant": "All strings and sets.", "anchors": ["libcompat/strsep.c:strsep"]}
{"id": "C75", "title": "getline", "statement": "getline (libcompat) delivers the lines of a stream one after the other, each complete with its newline and terminated, for every line length, initial buffer, allocation failure and read error, without ever writing outside its buffer; it returns -1 only at the end of the file, on a read error or when memory runs out.", "quantifier": "all files, buffers, allocation failures and read errors", "why_tests_cant": "Buffer growth depends on line lengths, and failures can happen anywhere.", "anchors": ["libcompat/getline.c:getdelim,getline"]}
{"id": "C76", "title": "Lines of env files", "statement": "ParseEnvLine finds in KEY=VALUE exactly the trimmed key and the value with quotes removed and escapes resolved, finds nothing in blank lines, comments, and lines without key, equal sign or with a stray quote, and stays inside the buffer for every line.", "quantifier": "all lines", "why_tests_cant": "All lines, quoting and escapes.", "anchors": ["libutils/json-utils.c:ParseEnvLine,filtered_copy"]}
{"id": "C77", "title": "Env files", "statement": "JsonParseEnvFile yields the object of the assignments in the lines within the size limit, the last definition of a key counting, and false exactly when the file cannot be opened or reading fails within the limit.", "quantifier": "all files, limits and read errors", "why_tests_cant": "All files.", "anchors": ["libutils/json-utils.c:JsonParseEnvFile", "libutils/file_lib.c:CfReadLine"]}
{"id": "C78", "title": "Lines and records of files", "statement": "CfReadLines appends all lines of the file without newlines and returns their number, or -1 if reading fails; JsonParseCsvFile returns the array of the records within the size limit, so that it reads back what the CSV writer wrote.", "quantifier": "all files, limits and read errors", "why_tests_cant": "All files.", "anchors": ["libutils/file_lib.c:CfReadLine,CfReadLines", "libutils/json-utils.c:JsonParseCsvFile"]}
{"id": "C79", "title": "Data file types", "statement": "GetDataFileTypeFromString and GetDataFileTypeFromSuffix recognise exactly the documented names and suffixes, ignoring case, and everything with another suffix is JSON.", "quantifier": "all names", "why_tests_cant": "All strings.", "anchors": ["libutils/json-utils.c:GetDataFileTypeFromString,GetDataFileTypeFromSuffix"]}
{"id": "C80", "title": "Key/value files", "statement": "ParseKeyValue calls the callback once per line, in order, with the text in front of and behind the first colon, stops and returns false at the first refusal or line without colon, and returns true only at the end of a file without read errors; ParseKeyNumericValue in addition scans each value as a number.", "quantifier": "all files, callbacks and read errors", "why_tests_cant": "Callbacks are arbitrary and lines unbounded.", "anchors": ["libutils/proc_keyvalue.c:ParseKeyValue,ParseKeyNumericValue,KeyNumericParserCallback"]}
{"id": "C81", "title": "Search and replace", "statement": "BufferSearchAndReplace replaces the first match (with option g: every match, one after the other) by the substitute, in which \\t-like escapes, $1/\\1, $& and $+ are expanded, and leaves the rest of the text as it is; if the pattern is invalid or matching fails the buffer is unchanged and an error message is returned. Every substitute text has exactly one meaning.", "quantifier": "all texts, substitutes, options and all answers of the regular expression engine", "why_tests_cant": "All texts, matches and substitutes; sizes are computed before copying.", "anchors": ["libutils/buffer.c:BufferSearchAndReplace", "libutils/pcre_wrap.c:pcre_wrap_compile,pcre_wrap_compile_replacement,pcre_wrap_execute"]}
{"id": "C82", "title": "Search and replace options", "statement": "The option letters i, m, s, x, U select exactly the corresponding PCRE options, g and T global and literal replacement, in any order and number; all other letters are ignored.", "quantifier": "all option strings", "why_tests_cant": "All strings.", "anchors": ["libutils/pcre_wrap.c:pcre_wrap_parse_perl_options"]}
{"id": "C83", "title": "Hash objects", "statement": "Every constructor of hash objects gives an object whose digest is the digest of exactly the data named (bytes, everything left in a descriptor however reads are split up, modulus and exponent of a key), whose printable form is the type prefix and the lower-case hexadecimal digest, or NULL when the method is not available; copies say the same, HashEqual is true exactly for equal method and digest, equal printable forms mean equal digests, and method names and ids correspond one to one.", "quantifier": "all data, read sizes, methods and OpenSSL configurations", "why_tests_cant": "Reads can be split in any way, data are unbounded.", "anchors": ["libutils/hash.c:HashNew,HashNewFromDescriptor,HashNewFromKey,HashCopy,HashEqual,HashIdFromName,HashNameFromId,HashSizeFromId"]}
{"id": "C84", "title": "Plain digests", "statement": "HashString, HashFile and HashPubKey store the digest of exactly the data followed by zeros; HashesMatch is true exactly when the digests are equal; HashPrintSafe prints prefix and hexadecimal digest without touching more of the destination, and SkipHashType finds the digest in what it printed.", "quantifier": "all data, file sizes, methods and destinations", "why_tests_cant": "Data and sizes are unbounded.", "anchors": ["libutils/hash.c:HashString,HashFile,HashPubKey,HashesMatch,HashPrintSafe,SkipHashType"]}
{"id": "C85", "title": "Truncating with a hash", "statement": "StringCopyTruncateAndHashIfNecessary copies a string that fits; of a longer one it keeps the beginning and puts #MD5= and the MD5 of the whole string at the end so that the buffer is exactly filled; hence long strings with different MD5 stay different, and the memory behind the buffer is untouched.", "quantifier": "all strings and buffer sizes above 37", "why_tests_cant": "All lengths around the boundary.", "anchors": ["libutils/hash.c:StringCopyTruncateAndHashIfNecessary"]}
{"id": "C86", "title": "Symlink-safe opening: descriptors and changes", "statement": "Whatever other processes do to the file system between its system calls and whichever of these fail, safe_open, safe_open_create_perms and safe_creat leak and use no closed descriptor; when they fail they changed nothing; when they succeed they changed at most one thing, last: they created the file returned, or truncated it, each only if asked to.", "quantifier": "all file systems, paths, flags, interleavings with other processes and failures of system calls", "why_tests_cant": "The schedule of other processes and the failing call are arbitrary.", "anchors": ["libutils/file_lib.c:safe_open,safe_open_create_perms,safe_creat"]}
{"id": "C87", "title": "Symlink-safe opening: who is trusted", "statement": "Whatever other processes do, every directory and file opened on the way was, when checked after opening, of the same owner and group as what was seen under that name, unless what was seen belongs to root or (as documented) the running user; in particular a process of root that sees something of another user never ends up in (and never truncates) a file of somebody else.", "quantifier": "all file systems, paths, flags, interleavings and failures", "why_tests_cant": "Races between looking and opening happen at any point.", "anchors": ["libutils/file_lib.c:safe_open_create_perms"]}
{"id": "C88", "title": "Symlink-safe opening without interference", "statement": "If nobody interferes safe_open opens exactly the file open(2) resolves the path to when every component is trusted, fails with ENOLINK without effects at the first untrusted link, creates a missing file with the given permissions in the directory named, refuses existing ones with O_EXCL (EEXIST) and dangling links (EACCES), and changes nothing else.", "quantifier": "all file systems and paths with any number of links", "why_tests_cant": "All directory trees, links and paths.", "anchors": ["libutils/file_lib.c:safe_open,safe_open_create_perms"]}
{"id": "C89", "title": "Symlink-safe chown", "statement": "safe_lchown and safe_chown change the owner of exactly one object, called as the last name of the path in the directory found by checked steps, or fail without any change; without interference this is the object the path names (for safe_chown: with the link followed).", "quantifier": "all file systems, paths, interleavings and failures", "why_tests_cant": "Races between looking and changing happen at any point.", "anchors": ["libutils/file_lib.c:safe_chown,safe_lchown,safe_chown_impl,safe_open_true_parent_dir"]}
{"id": "C90", "title": "Symlink-safe chmod, chdir and fopen", "statement": "safe_chmod changes the permissions of exactly one file reached by checked steps (for FIFOs and sockets: one of the owner seen), safe_chdir enters exactly a directory reached by checked steps, both without leaking descriptors; safe_fopen translates a mode string into the flags its letters stand for and rejects others, and never asks to truncate without writing.", "quantifier": "all file systems, paths, modes, interleavings and failures", "why_tests_cant": "Races and mode strings are arbitrary.", "anchors": ["libutils/file_lib.c:safe_chmod,safe_chdir,safe_fopen"]}
{"id": "C91", "title": "Formatted output", "statement": "vsnprintf writes, for every format of ordinary characters, %% and the conversions d i u x X o c s p n f F e E g G with any flags, field width and precision (given or taken from the arguments) and length modifiers, the text C99 says, cut to the buffer and NUL-terminated, leaves the rest of the buffer alone, and returns the length of the whole text (-1 from INT_MAX on), also without a buffer.", "quantifier": "all formats, arguments, flags, widths, precisions and buffer sizes", "why_tests_cant": "Formats, numbers and sizes are unbounded.", "anchors": ["libcompat/snprintf.c:rpl_vsnprintf,fmtstr,fmtint,fmtflt,getexponent,cast,myround,mypow10,convert"]}
{"id": "C92", "title": "Formatted output stays in its buffer", "statement": "Whatever the format (also malformed) and the arguments, vsnprintf comes to an end and, if the arguments are of the right types, changes no byte outside of the given size, leaves a NUL inside it and returns -1 or a length below INT_MAX; widths and precisions above INT_MAX give -1 after the text in front of them.", "quantifier": "all formats, arguments and buffer sizes", "why_tests_cant": "All formats, also malformed ones.", "anchors": ["libcompat/snprintf.c:rpl_vsnprintf"]}
{"id": "C93", "title": "Formatted output into new memory", "statement": "vasprintf allocates exactly the bytes needed for the text C99 says and its NUL, and returns its length, or -1 when the text has INT_MAX characters or more or there is no memory.", "quantifier": "all formats and arguments", "why_tests_cant": "Formats, numbers and sizes are unbounded.", "anchors": ["libcompat/snprintf.c:rpl_vasprintf"]}
{"id": "C94", "title": "Where log messages go", "statement": "A message goes to the console exactly if its level is within the reporting level of the calling thread, to the system log exactly if it is within its log level and less than verbose, to the hook of the thread whenever one is attached and the message goes anywhere or the hook is forced for the level; without a final newline, with the replacement text of the hook, and in the documented line formats. A thread starts with the global level; afterwards nothing other threads do changes its settings. WouldLog is true exactly if a message of that level would be output.", "quantifier": "all histories of setting levels, colors, hooks, time stamps, agent types and of messages, by any number of threads", "why_tests_cant": "Histories and interleavings are unbounded.", "anchors": ["libutils/logging.c:VLog,Log,WouldLog,LogToConsole,LogToSystemLog,LogSetGlobalLevel,LoggingPrivSetLevels,LoggingPrivSetContext,LoggingFreeCurrentThreadContext,LoggingSetColor,LoggingEnableTimestamps,LoggingSetAgentType"]}
{"id": "C95", "title": "Names of log levels", "statement": "LogLevelFromString accepts exactly the non-empty beginnings of CRITICAL, errors, warnings, notices, information, verbose and debug, in any case, and gives the level so named; the name LogLevelToString gives for a level denotes it; LogSetGlobalLevelArgOrExit sets that level or exits with status 1 and a message on stderr.", "quantifier": "all strings", "why_tests_cant": "All strings.", "anchors": ["libutils/logging.c:LogLevelFromString,LogLevelToString,LogSetGlobalLevelArgOrExit"]}
{"id": "C96", "title": "Debug modules", "statement": "LogEnableModulesFromString turns on exactly the modules named in a comma separated list (all: every one) before a help, turns none off, leaves the string as it was, warns about unknown names in their order, and returns false exactly if help is asked for (then it prints the names); LogDebug is silent for a module that is not on and otherwise a message of level debug.", "quantifier": "all lists of names, all sets of modules that are on", "why_tests_cant": "Lists are unbounded.", "anchors": ["libutils/logging.c:LogEnableModulesFromString,LogEnableModule,LogModuleEnabled,LogDebug,LogModuleHelp"]}
{"id": "C97", "title": "Logging raw bytes", "statement": "LogRaw logs the prefix and the first 4096 bytes with each unprintable byte (also NUL) as a dot, if the level is within one of the levels of the thread, and nothing otherwise.", "quantifier": "all buffers, prefixes and levels", "why_tests_cant": "Buffers are arbitrary.", "anchors": ["libutils/logging.c:LogRaw"]}
{"id": "C98", "title": "Human readable sizes", "statement": "byte_magnitude and byte_unit agree: the number of whole units printed (bytes, KiB, MiB, GiB) is less than a unit below the size, and less than one eighth of it is lost.", "quantifier": "all sizes", "why_tests_cant": "All numbers around the thresholds.", "anchors": ["libutils/logging.c:byte_magnitude,byte_unit"]}
{"id": "C99", "title": "File locks exclude each other", "statement": "Whatever the interleaving of the calls of any number of processes, failures of system calls, signals and processes that are killed at any moment: if a process was told 0 by ExclusiveFileLock(Path) and has not unlocked the file since, no other process that was told 0 by an exclusive or shared lock call for that file still has it; shared locks exclude only exclusive ones; what the callers were told agrees with the locks the operating system keeps; a process that ends, wherever it is, gives up its locks and no other process's.", "quantifier": "all histories and interleavings of lock, unlock and check calls of all processes on all files, all failures and signals", "why_tests_cant": "Schedules are unbounded.", "anchors": ["libutils/file_lib.c:LockFD,UnlockFD,ExclusiveFileLock,SharedFileLock,ExclusiveFileLockPath,SharedFileLockPath,ExclusiveFileUnlock,SharedFileUnlock"]}
{"id": "C100", "title": "File lock results", "statement": "Lock and unlock calls return 0 or -1, those with a path also -2 (the file could not be opened); a waiting call is not ended by a signal and succeeds when no lock excludes it any more; ExclusiveFileLockCheck answers true only when no other process has a lock; the descriptors a process has open are those in its FileLocks.", "quantifier": "all histories and interleavings of calls, failures and signals", "why_tests_cant": "Schedules are unbounded.", "anchors": ["libutils/file_lib.c:LockFD,ExclusiveFileLockCheck,ExclusiveFileLockPath,SharedFileLockPath,ExclusiveFileUnlock"]}
{"id": "C101", "title": "Opening directories", "statement": "DirOpen returns a stream on an object that was reached along its path by checked steps only (no untrusted link), or fails; in both cases, whatever other processes do and whichever system calls fail, no other descriptor is opened or left open; without interference it opens the directory the path names.", "quantifier": "all file systems, paths, interleavings and failures", "why_tests_cant": "Races between checking and opening happen at any point.", "anchors": ["libutils/unix_dir.c:DirOpen,DirClose"]}
{"id": "C102", "title": "Deleting directory trees", "statement": "DeleteDirectoryTree comes to an end; if it returns true the directory and the directories below it are empty; whatever it returns nothing outside of the directory is changed, links are removed and not followed, and no descriptor is left open; it returns true if the operating system refuses no removal; a path over an untrusted link gives false without effects.", "quantifier": "all trees, paths, orders in which names are read, refused removals and failing calls", "why_tests_cant": "Trees have any depth and width; names come in any order.", "anchors": ["libutils/file_lib.c:DeleteDirectoryTree,DeleteDirectoryTreeInternal", "libutils/unix_dir.c:DirRead"]}
{"id": "C103", "title": "IPv4 addresses as text", "statement": "inet_pton(AF_INET) accepts exactly four decimal numbers up to 255 between dots, stores these four bytes and returns 1; for any other text it returns 0 and stores nothing. inet_ntop(AF_INET) writes the four numbers without leading zeros and a NUL if they fit the given size, else it fails with ENOSPC and stores nothing; nothing behind the text is changed, and what was written reads back as the same address. Other families give EAFNOSUPPORT.", "quantifier": "all texts, addresses, buffers and sizes", "why_tests_cant": "All texts and sizes.", "anchors": ["libcompat/inet_pton.c:inet_pton,inet_pton4", "libcompat/inet_ntop.c:inet_ntop,inet_ntop4"]}
{"id": "C104", "title": "IPv6 addresses as text", "statement": "inet_ntop(AF_INET6) writes the canonical text of the address (lower case groups without leading zeros, :: for the first of the longest runs of at least two zero groups, a dotted quad behind six zeros or five zeros and ffff) and a NUL if they fit, else it fails with ENOSPC and stores nothing; the parser of inet_pton accepts every textual form of RFC 4291, stores the address it denotes, and stores nothing for texts it refuses; what was written reads back as the same address.", "quantifier": "all texts, addresses, buffers and sizes", "why_tests_cant": "2^128 addresses, all texts.", "anchors": ["libcompat/inet_pton.c:inet_pton6", "libcompat/inet_ntop.c:inet_ntop6"]}
{"id": "C105", "title": "JSON elements in memory", "statement": "A program that creates, copies, appends, extends, removes, detaches, reverses, reads and destroys JSON elements, that appends or destroys only elements that belong to no container, and that passes as key no string the call frees, never touches freed memory, frees nothing twice and fails no assert; each call changes the trees as documented (the values are those of the value-level operations), JsonDestroy frees exactly the tree of its argument, and a program that destroys what it still owns leaves nothing allocated.", "quantifier": "all programs, trees, keys and values", "why_tests_cant": "Histories of calls and shapes of trees are unbounded.", "anchors": ["libutils/json.c:JsonDestroy,JsonCopy,JsonObjectAppendElement,JsonObjectAppendString,JsonArrayAppendElement,JsonArrayExtend,JsonObjectRemoveKey,JsonObjectDetachKey,JsonArrayRemoveRange,JsonContainerReverse,JsonElementSetPropertyName,JsonElementCreatePrimitive,JsonElementCreateContainer"]}
{"id": "C106", "title": "Reading JSON elements and iterators", "statement": "The typed getters give the member or child with the key or index if it has the asked type, NULL (false for booleans) if there is none, and fail an assert if it has another type; an iterator gives every child exactly once in order and then NULL, NextKey the names, NextValueByType exactly the children of the kind (without nulls if asked); HasMore, CurrentValue and CurrentKey agree with the position.", "quantifier": "all trees, keys, indices and positions", "why_tests_cant": "Trees are unbounded.", "anchors": ["libutils/json.c:JsonObjectGetAsString,JsonObjectGetAsBool,JsonObjectGetAsObject,JsonObjectGetAsArray,JsonArrayGet,JsonArrayGetAsString,JsonArrayGetAsObject,JsonIteratorInit,JsonIteratorNextValue,JsonIteratorNextKey,JsonIteratorNextValueByType,JsonIteratorCurrentValue,JsonIteratorCurrentKey,JsonIteratorHasMore,JsonArrayContainsOnlyPrimitives,JsonLength,JsonGetType"]}
{"id": "C107", "title": "Known directories", "statement": "With the test override every Get...Dir function gives the override or the folder below it; root gets the directories compiled in (those compiled as default lie below the work directory); another user gets the folder below .cfagent in the home directory found at the first call that fits, and after that the same text whatever is called in between and whatever changes in the password database; no buffer ever holds more than fits, longer texts are cut.", "quantifier": "all histories of calls of the eight functions, with any users, home directories and overrides at each call", "why_tests_cant": "Histories are unbounded; the buffers are static.", "anchors": ["libutils/known_dirs.c:GetDefaultDir_helper,GetWorkDir,GetBinDir,GetLogDir,GetPidDir,GetInputDir,GetMasterDir,GetStateDir,GetDataDir"]}
{"id": "C108", "title": "YAML documents as JSON", "statement": "JsonParseYamlString gives the value of the first document: sequences as arrays, mappings as objects (of members with the same key the last one counts, at its place), scalars as null, booleans, numbers or strings; later documents are ignored. Whatever libyaml reports, the call ends with a copy of a well-formed value or stops the program.", "quantifier": "all streams of documents of any shape, all sequences of parser events", "why_tests_cant": "Documents nest without bound; parser errors come anywhere.", "anchors": ["libutils/json-yaml.c:JsonParseYamlString,JsonParseYamlData"]}
{"id": "C109", "title": "YAML scalars", "statement": "A plain scalar is null, a boolean or a number exactly if it spells one of the words of YAML 1.1 or a number in the syntax of JSON, and otherwise the same text as a string; a quoted scalar is always a string; a tag null, bool, int or float allows only that type.", "quantifier": "all scalars with all styles and tags", "why_tests_cant": "All texts.", "anchors": ["libutils/json-yaml.c:JsonParseYamlScalarValue"]}
{"id": "C110", "title": "Matching regular expressions", "statement": "StringMatch and its variants answer whether the pattern is found and set start and end to where; StringMatchFull answers whether what is found is the whole text; RegexPartialMatch whether anything is found; a bad expression matches nothing; CompareStringOrRegex compares with a text or a pattern, NULL and the empty text match everything.", "quantifier": "all patterns (any number of groups) and texts", "why_tests_cant": "PCRE is arbitrary code; patterns and texts are unbounded.", "anchors": ["libutils/regex.c:StringMatch,StringMatchWithPrecompiledRegex,StringMatchFull,StringMatchFullWithPrecompiledRegex,RegexPartialMatch,CompareStringOrRegex,CompileRegex"]}
{"id": "C111", "title": "Captures", "statement": "StringMatchCaptures gives NULL if nothing is found and otherwise the texts of all groups in order (empty for a group that took no part), each behind its name or number if asked for; StringCaptureData gives an object with a member for every group but group 0.", "quantifier": "all patterns, names of groups and texts", "why_tests_cant": "Numbers of groups and layouts of the name table are unbounded.", "anchors": ["libutils/regex.c:StringMatchCaptures,StringMatchCapturesWithPrecompiledRegex", "libutils/json.c:StringCaptureData"]}
{"id": "C112", "title": "Passing open files", "statement": "Whatever the interleaving of calls at the two ends of a socket: PassOpenFile_Get returns the open files in the order in which PassOpenFile_Put passed them, each once and with its text (NULL as NULL, the empty text as the empty text); Put answers true exactly if something was sent; when Get returns -1 it has opened nothing.", "quantifier": "all interleavings of calls, all tables of descriptors, texts and failures, all messages of a peer", "why_tests_cant": "Schedules and messages of the other process are unbounded.", "anchors": ["libutils/passopenfile.c:PassOpenFile_Put,PassOpenFile_Get"]}
{"id": "C113", "title": "Copying a file", "statement": "File_Copy answers true only if the destination then holds what the source held before; it answers true if nothing fails, however little each write takes, and false if a file cannot be opened, a read, an unavoidable write or a close fails; no other file changes, and none if an open fails. File_CopyToDir copies to the base name in the directory, and does nothing if there is no base name or the path is too long. ReadFileStreamToBuffer puts the start of the stream at the start of the buffer, changes nothing else, and gives the count or -1.", "quantifier": "all contents, sequences of short or failing reads and writes, failing opens and closes", "why_tests_cant": "Files have any length; each call can fail or be short at any point.", "anchors": ["libutils/file_lib.c:File_Copy,File_CopyToDir,ReadFileStreamToBuffer"]}
{"id": "C114", "title": "Listing files", "statement": "ListDir gives, in the order they are read, the paths of the entries that end with the extension whatever the case of letters. GlobFileList gives the set of what glob finds for the pattern, or if two asterisks occur in it, for the pattern with each pair replaced by one to six components.", "quantifier": "all directories, extensions, patterns and results of glob", "why_tests_cant": "Directories, patterns and results are unbounded.", "anchors": ["libutils/file_lib.c:ListDir,GlobFileList"]}
{"id": "C115", "title": "umask and close-on-exec", "statement": "SetUmask returns the former mask, which RestoreUmask brings back whatever happened in between; SetCloseOnExec succeeds exactly for an open descriptor, whose flag is then the one asked for while no other flag, descriptor or mask changes.", "quantifier": "all masks, descriptors and flags", "why_tests_cant": "All tables of descriptors.", "anchors": ["libutils/file_lib.c:SetUmask,RestoreUmask,SetCloseOnExec"]}
{"id": "C116", "title": "Resolving addresses", "statement": "getaddrinfo (compat) gives the addresses asked for: those of the host in their order, the one a numeric text denotes, any or loopback without a name; with the asked socket type (a stream by default), protocol and port, and the canonical name with the first entry. It fails only for an unsupported family, missing names, a text that is no address, an error of the resolver or an allocation that fails, and then leaves nothing allocated; freeaddrinfo frees exactly what a call allocated, each block once.", "quantifier": "all requests, answers of the resolver, points where allocation fails", "why_tests_cant": "Allocation can fail at any point; hosts have any number of addresses.", "anchors": ["libcompat/getaddrinfo.c:getaddrinfo,freeaddrinfo,getaddr_info_name,getaddr_info_single_addr,alloc_entry"]}
{"id": "C117", "title": "Names of addresses", "statement": "getnameinfo (compat) puts the name of the host (the part before the first dot if asked) or its dotted quad into the buffer, and the number or name of the service; it fails with EAI_MEMORY exactly if the text does not fit, writes nothing behind the given size, and refuses bad arguments without touching the buffers.", "quantifier": "all addresses, flags, buffers, sizes and answers of the resolver", "why_tests_cant": "All names and sizes.", "anchors": ["libcompat/getaddrinfo.c:getnameinfo,gethostnameinfo,getservicenameinfo"]}
{"id": "C118", "title": "*at functions", "statement": "Where openat, fstatat, fchmodat, fchownat and readlinkat are made of fchdir: whatever the interleaving of threads, each call makes its system call at most once, in the directory its descriptor refers to (for AT_FDCWD the current directory of the process), and returns its result or -1; when no call is in progress the current directory is the former one (unless a way back failed), and the open descriptors are those the program opened or got, whatever failed; there is no deadlock.", "quantifier": "all interleavings of any number of threads, all points where open, fchdir or the system call fails", "why_tests_cant": "Schedules are unbounded; each step can fail.", "anchors": ["libcompat/generic_at.c:generic_at_function", "libcompat/openat.c:openat,openat_inner,cleanup", "libcompat/fstatat.c:fstatat", "libcompat/fchmodat.c:fchmodat", "libcompat/fchownat.c:fchownat", "libcompat/readlinkat.c:readlinkat"]}
{"id": "C119", "title": "Wide characters", "statement": "ConvertFromCharToWChar and ConvertFromWCharToChar convert at most size-1 characters, end the result with a zero, write nothing else and read no further than they must; characters above 255 become underscores, and true is returned exactly if there were none; ASCII text comes back unchanged.", "quantifier": "all texts, buffers and sizes above 0", "why_tests_cant": "All texts and sizes.", "anchors": ["libutils/unicode.c:ConvertFromCharToWChar,ConvertFromWCharToChar"]}
{"id": "C120", "title": "unsetenv and mkdtemp", "statement": "unsetenv (SVR4) takes the first entry for the name out of the environment and keeps the others in order, so that getenv of every other name is unchanged; bad names are refused. mkdtemp replaces the final XXXXXX of the template by the first six-digit number whose directory it could create, gives up on an error other than EEXIST or after a million names, and writes nothing else; other templates are refused and unchanged.", "quantifier": "all environments, names, templates, and answers of mkdir", "why_tests_cant": "Environments, templates and the behaviour of other processes are unbounded.", "anchors": ["libcompat/unsetenv.c:unsetenv", "libcompat/mkdtemp.c:mkdtemp"]}
{"id": "C121", "title": "closefrom", "statement": "After closefrom(fd) with /proc exactly the descriptors below fd are open, whatever the order of the entries of /proc/PID/fd and whether closed ones are still listed; without /proc those from fd up to the limit are closed; an entry that is no number gives -1.", "quantifier": "all sets of open descriptors, listings and limits", "why_tests_cant": "Tables of descriptors are unbounded.", "anchors": ["libcompat/closefrom.c:closefrom"]}
{"id": "C122", "title": "Sets of strings and JSON", "statement": "StringSetToJson gives an array with each member once, as a string; JsonArrayToStringSet gives a set exactly if below the array there are only strings, booleans and numbers with no array behind any of them, and then the set of their texts; to JSON and back gives an equal set.", "quantifier": "all sets and all JSON trees whose numbers can be converted", "why_tests_cant": "Sets and trees are unbounded.", "anchors": ["libutils/set.c:StringSetToJson,JsonArrayToStringSet,VisitJsonArrayFirst,AddArrayItemToStringSet", "libutils/json.c:JsonPrimitiveToString,JsonErrorVisitor"]}
{"id": "C123", "title": "StringHash", "statement": "StringHash gives an unsigned int of 32 bits; two seeds never give a string the same hash, strings that differ in one character never have the same hash (for any seed), and if two strings collide so do their extensions by the same text.", "quantifier": "all strings and seeds", "why_tests_cant": "There are unboundedly many strings and 2^32 seeds.", "anchors": ["libutils/string_lib.c:StringHash,StringHash_untyped"]}
{"id": "C124", "title": "Members of lists, lines of CSV", "statement": "IsStrIn and IsStrCaseIn answer whether the text is in the list before its first NULL (without regard to case for the second). TrimCSVLineCRLFStrict on ASCII text returns the trimmed line and its length exactly if the line is not empty, shorter than 4096, does not begin with a blank and is not empty and does not end with a blank once trimmed; otherwise it stops the program.", "quantifier": "all texts and lists", "why_tests_cant": "Texts and lists are unbounded.", "anchors": ["libutils/string_lib.c:IsStrIn,IsStrCaseIn,TrimCSVLineCRLFStrict"]}
{"id": "C125", "title": "StringEncodeBase64", "statement": "The result is a C string of lines of exactly 64 characters but for the last, which has 1 to 64 and no newline; without newlines a reader of base 64 gets back the bytes, so different data give different texts; no bytes give the empty text.", "quantifier": "all data of any length, with any bytes", "why_tests_cant": "Data are unbounded.", "anchors": ["libutils/encode.c:StringEncodeBase64"]}
{"id": "C126", "title": "Data files", "statement": "JsonParseFile and JsonParseYamlFile report NO_SUCH_FILE exactly when the file cannot be opened or read, TRUNCATED when it is longer than the limit, and otherwise what the parser makes of its whole text, however the kernel cuts it; JsonReadDataFile returns the tree exactly if it is an array or object, so what JsonWrite or the CSV writer put into a file comes back; no descriptor stays open.", "quantifier": "all contents without NUL, limits, patterns of short, interrupted and failing reads", "why_tests_cant": "Contents and read patterns are unbounded.", "anchors": ["libutils/file_lib.c:FileRead", "libutils/json.c:JsonParseAnyFile,JsonParseFile", "libutils/json-yaml.c:JsonParseYamlFile", "libutils/json-utils.c:JsonReadDataFile"]}
{"id": "C127", "title": "Keys own their numbers", "statement": "A set0 function on an RSA, DSA or DH key or a signature fails, without effect, exactly if a field that must be set would stay NULL; otherwise the fields hold the numbers given (NULL keeps the former), and get0 returns them. Over any history of calls in which every number is passed once, exactly the numbers a key got and no longer holds are freed, each once, and it never holds a freed one; after a failing call the arguments are still the caller's.", "quantifier": "all histories of calls, all combinations of NULL arguments and fields", "why_tests_cant": "Histories are unbounded.", "anchors": ["libutils/libcrypto-compat.c:RSA_set0_key,RSA_set0_factors,RSA_set0_crt_params,DSA_set0_pqg,DSA_set0_key,DSA_SIG_set0,ECDSA_SIG_set0,DH_set0_pqg,DH_set0_key,RSA_get0_key,DH_get0_pqg"]}
{"id": "C128", "title": "Methods own their names", "statement": "RSA_meth_dup gives a method with the same functions and its own copy of the name, RSA_meth_set1_name replaces the name by a copy (also of itself) and frees the former, the setters change one function each, RSA_meth_free frees the method and its name; if memory runs out nothing changes; a copy, whatever is done to it, and its end leave memory as it was.", "quantifier": "all memories, histories of calls, points where memory runs out", "why_tests_cant": "Histories are unbounded and allocation can fail at any point.", "anchors": ["libutils/libcrypto-compat.c:RSA_meth_dup,RSA_meth_set1_name,RSA_meth_set_priv_enc,RSA_meth_set_priv_dec,RSA_meth_set_finish,RSA_meth_free"]}
{"id": "C129", "title": "Help text", "statement": "WriterWriteHelp prints the usage line, one line for each option with its long name, its one-letter form if its value is in 1..127 and none if it is 128 or more, whether it takes a value, and its hint, and two lines for each command, before the options or behind as asked, up to the first entry without a name; the text tells all options apart.", "quantifier": "all tables of options, hints and commands, any number of entries, names and hints of up to 10^9 bytes", "why_tests_cant": "Tables and texts are unbounded.", "anchors": ["libutils/writer.c:WriterWriteHelp,WriterWriteOptions,WriterWriteCommands"]}
{"id": "C130", "title": "Manual page", "statement": "ManPageWrite prints the header with the program's name in capitals (its first 254 characters) and the date, that of SOURCE_DATE_EPOCH if it begins with a positive number, then name, synopsis, description, for each command its name, description and usage, for each option its long and one-letter form, whether it takes a value, and its hint.", "quantifier": "all programs, tables of options and commands, descriptions and values of SOURCE_DATE_EPOCH", "why_tests_cant": "Tables and texts are unbounded.", "anchors": ["libutils/man.c:ManPageWrite,WriteHeader,WriteOptions,WriteCommands,WriteSynopsis"]}
{"id": "C131", "title": "Out of memory", "statement": "xmalloc, xcalloc, xrealloc, xstrdup, xstrndup, xmemdup and xasprintf return, if at least one byte is asked for, a new block with the content asked for and change nothing else; they return NULL only for no bytes; if there is no memory (or a size or text too large) they say so on stderr, every registered cleanup function is called once, the last registered first, and the process ends with status 255.", "quantifier": "all requests, contents and sizes, all histories of blocks and registered functions, all answers of the allocator", "why_tests_cant": "Any request can be the one that fails; functions and sizes are unbounded.", "anchors": ["libutils/alloc.c:CheckResult,xmalloc,xcalloc,xrealloc,xstrdup,xstrndup,xmemdup,xasprintf,xvasprintf", "libutils/cleanup.c:DoCleanupAndExit,CallCleanupFunctions,RegisterCleanupFunction"]}
{"id": "C132", "title": "putenv_wrapper", "statement": "putenv_wrapper splits its argument at the first =: the name in front of it afterwards has everything behind it as its value and no other variable changes; without a = or a name it returns -1 with EINVAL, without memory -1 with ENOMEM, and the environment stays as it was. The argument is not changed.", "quantifier": "all strings and environments", "why_tests_cant": "Strings and environments are unbounded.", "anchors": ["libutils/misc_lib.c:putenv_wrapper,setenv_wrapper"]}
{"id": "C133", "title": "xsnprintf", "statement": "xsnprintf writes the text C99 says if it fits in the buffer with its NUL; if it does not, the process ends, or with NDEBUG the text is cut, terminated and reported; a text of INT_MAX characters gives the empty string and a warning; nothing behind the size is ever changed.", "quantifier": "all formats of C91 (safety: all formats), arguments, buffers and sizes", "why_tests_cant": "Formats, texts and sizes are unbounded.", "anchors": ["libutils/misc_lib.c:xsnprintf"]}
{"id": "C134", "title": "Formatted printing into buffers", "statement": "BufferPrintf replaces the text of a buffer by the text C99 says, BufferAppendF puts it behind the text that is there; both give its length, whatever the capacity was, and mix with all the other buffer calls in any history. After any format at all the buffer has kept its mode, has not shrunk and is terminated within its capacity. For a text of INT_MAX characters or more BufferPrintf gives -1 and BufferAppendF fails its assertion.", "quantifier": "all formats of C91 (safety: all formats), arguments, and histories of buffer calls", "why_tests_cant": "Formats, texts and histories are unbounded.", "anchors": ["libutils/buffer.c:BufferPrintf,BufferVPrintf,BufferAppendF,BufferAppendString"]}
{"id": "C135", "title": "StringFormat, StringFromDouble", "statement": "StringFormat and StringVFormat return a new string with exactly the text C99 says; they never return NULL: when it has INT_MAX characters or more, or there is no memory, the process ends. StringFromDouble writes the number in decimal with exactly two digits behind the point, correctly rounded, and a - in front of negative ones.", "quantifier": "all formats of C91, arguments, and all finite numbers below 2^64-1", "why_tests_cant": "Formats, texts and numbers are unbounded.", "anchors": ["libutils/string_lib.c:StringFormat,StringVFormat,StringFromDouble", "libutils/alloc.c:xvasprintf"]}
{"id": "C136", "title": "Formatted printing to streams and writers", "statement": "vfprintf writes to the stream exactly the text C99 says, as much as the stream takes, and gives the number of characters written, whether the text fits in the local array or memory is taken for it; a text that is too long or no memory give -1 and write nothing. WriterWriteF puts the text behind what was written to the writer before, and CsvWriterFieldF writes it as one CSV field.", "quantifier": "all formats of C91, arguments, streams, writers and histories of writer calls", "why_tests_cant": "Formats, texts and histories are unbounded.", "anchors": ["libcompat/snprintf.c:rpl_vfprintf", "libutils/writer.c:WriterWriteF,WriterWriteVF,StringWriterWriteLen", "libutils/csv_writer.c:CsvWriterFieldF,CsvWriterFieldVF"]}
{"id": "C137", "title": "Running averages", "statement": "After any number of samples the expectation is the average of all samples weighted by their trusts (each trust times what the later ones leave; the weights add up to 1), and the variance is the same average of the squared deviations; with trusts between 0 and 1 the expectation stays between the smallest and the largest sample. Whatever the rounding of the machine is, the variance is never negative, nor is the expectation of samples that are not.", "quantifier": "all histories of samples and trusts, and all monotone roundings", "why_tests_cant": "Histories are unbounded and numbers are a continuum.", "anchors": ["libutils/statistics.c:GAverage,QAverage,QDefinite", "libutils/statistics.h:QPoint"]}
{"id": "C138", "title": "round", "statement": "round gives the integer nearest to its argument, and of two that are equally near the one farther from zero, for every finite double, in spite of the rounding of the operations inside (no 0.49999999999999994 + 0.5).", "quantifier": "all finite binary64 numbers, and all machines that do not change exact results", "why_tests_cant": "There are 2^64 doubles.", "anchors": ["libcompat/round.c:round"]}
{"id": "C139", "title": "Light list iterators", "statement": "A light iterator taken from a list starts at the first value, and First, Last, Next and Previous move it like an index that stays within the list (-1 at the ends, where it stays); its data is the value at the index, and HasNext and HasPrevious say whether there are values behind and before it. An empty list gives no iterator.", "quantifier": "all histories of lists with copies (those of C20), all lists and all sequences of moves", "why_tests_cant": "Histories, lists and walks are unbounded.", "anchors": ["libutils/list.c:ListIteratorGet,ListIteratorFirst,ListIteratorLast,ListIteratorNext,ListIteratorPrevious,ListIteratorData,ListIteratorHasNext,ListIteratorHasPrevious"]}
{"id": "C140", "title": "NULL-safe string helpers and lifetime of string arrays", "statement": "SafeStringDuplicate and SafeStringNDuplicate of NULL give NULL and otherwise a new block of exactly the right size with the (cut) string; without memory the program ends. SafeStringLength of NULL is 0 and otherwise the length. StringContains and StringContainsChar answer whether the string or character occurs. String2StringArray puts every piece in a block of its own behind one array block and touches nothing that existed; FreeStringArray frees each of these blocks once and nothing else, so that making and freeing an array leaves the heap as it was.", "quantifier": "all strings, separators, heaps and NULL", "why_tests_cant": "Strings, arrays and heaps are unbounded.", "anchors": ["libutils/string_lib.c:SafeStringDuplicate,SafeStringNDuplicate,SafeStringLength,NULLStringToEmpty,String2StringArray,FreeStringArray", "libutils/string_lib.h:StringContains,StringContainsChar"]}
{"id": "C141", "title": "Writers and string sequences on files that fail", "statement": "On a file, WriterWrite, WriterWriteLen and WriterWriteChar return how many bytes the file took, and exactly these are behind what it had. WriterWriteF returns the number of bytes written. SeqStringWriteFile returns true only if the file has exactly the text of the sequence (which SeqStringReadFile reads back), and false if it cannot be opened, written or closed.", "quantifier": "all strings, sequences and all ways in which each write can succeed, be cut or fail", "why_tests_cant": "Write failures cannot be provoked at every point by tests.", "anchors": ["libutils/writer.c:FileWriterWriteF,FileWriterWriteLen,WriterWrite,WriterWriteLen,WriterWriteChar,WriterWriteVF", "libutils/string_sequence.c:WriteLenPrefixedString,SeqStringWrite,SeqStringWriteFileStream,SeqStringWriteFile"]}
{"id": "C142", "title": "Mutexes: ThreadLock, ThreadUnlock, ThreadWait", "statement": "Between the return of ThreadLock or ThreadWait and its next call of ThreadUnlock or ThreadWait a thread holds the mutex, and no two threads hold it at once. A call returns only if it was made by the rules (locking what one does not hold, unlocking or waiting with what one holds); every failure of pthread ends the process with status 101. ThreadWait returns 0 or ETIMEDOUT, the latter only if it was given a timeout and, unless the clock is set meanwhile, not before that many seconds have passed. A mutex that nobody holds or is giving back can be locked.", "quantifier": "all interleavings of calls by any number of threads, all failures of pthread, spurious wakeups and changes of the clock", "why_tests_cant": "Needs all schedules, failing pthread calls and a clock that is set in the middle of a wait.", "anchors": ["libutils/mutex.c:__ThreadLock,__ThreadUnlock,__ThreadWait", "libutils/mutex.h:THREAD_BLOCK_INDEFINITELY"]}
{"id": "C143", "title": "Statistics of a map", "statement": "MapPrintStats reports, for a map that has become a hash table, its number of buckets, its number of entries, the number of buckets that have entries, and the ten longest buckets in descending order, each once with its number of entries (0 when no more have any); for a small map it says that it is small.", "quantifier": "all histories of insertions, removals, lookups and clearings, all hash functions", "why_tests_cant": "Depends on the distribution of the keys over the buckets in every reachable table.", "anchors": ["libutils/map.c:MapPrintStats", "libutils/hash_map.c:HashMapPrintStats"]}
