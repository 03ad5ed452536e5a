{"id": "C01", "title": "Parse accepts exactly the JSON grammar", "statement": "For every 0-terminated byte string, Parse (and ParseFast) returns true if and only if the bytes before the terminator form one JSON text as RFC 8259 defines it (surrounded by optional whitespace), where in addition every \\u escape in the surrogate range is part of a high/low pair. Every other text is refused (a text on which the call reads past its buffer is the subject of C03).", "quantifier": "every byte string without a 0 byte, every state of the target value and of its allocator", "why_tests_cant": "There are infinitely many texts and the accept/reject boundary runs through all of them; the jsonchecker corpus samples 38 of them.", "anchors": ["zzzjson.h:zj_ParseFast", "zzzjson.h:zj_Parse", "zzzjson.h:zj_ParseLen", "zzzjson.h:zj_consumeStr", "zzzjson.h:zj_consumeNum", "zzzjson.h:zj_consumeNull", "zzzjson.h:zj_consumeTrue", "zzzjson.h:zj_consumeFalse", "zzzjson.h:zj_peek"]}
{"id": "C02", "title": "Parse builds the tree the text denotes", "statement": "After a successful Parse the value is the tree that the grammar assigns to the text: same types, same nesting, same order of elements and members (duplicate keys kept), string bodies, keys and number texts byte for byte as written.", "quantifier": "every valid JSON text, of any length and any nesting depth", "why_tests_cant": "Order, nesting and byte-exact content must hold for all shapes and depths, not for a sample.", "anchors": ["zzzjson.h:zj_ParseFast", "zzzjson.h:zj_node", "zzzjson.h:zj_Begin", "zzzjson.h:zj_Next", "zzzjson.h:zj_GetStr", "zzzjson.h:zj_GetNumStr", "zzzjson.h:zj_GetKey"]}
{"id": "C03", "title": "Parsing terminates and reads only the text and its terminator", "statement": "On every 0-terminated text parsing ends and never reads a byte beyond the terminator.", "quantifier": "every 0-terminated byte string, in a buffer that ends right after the terminator", "why_tests_cant": "An over-read of one to three bytes is invisible to a functional test and the texts that trigger it are arbitrary.", "anchors": ["zzzjson.h:zj_ParseFast", "zzzjson.h:zj_consumeNull", "zzzjson.h:zj_consumeTrue", "zzzjson.h:zj_consumeFalse", "zzzjson.h:zj_consumeStr", "zzzjson.h:zj_consumeNum"]}
{"id": "C04", "title": "A failed parse leaves the value as it was", "statement": "When Parse/ParseLen/ParseFast returns false, the target value has the content it had before (an empty value stays empty), and so has every other value.", "quantifier": "every rejected text, every prior content of the target, targets that are roots or children", "why_tests_cant": "The failure can occur at every byte of the text, after any number of nodes has been created.", "anchors": ["zzzjson.h:zj_ParseFast"]}
{"id": "C05", "title": "Stringify after Parse is minification", "statement": "If Parse accepts a text, Stringify of the value yields exactly that text with all whitespace outside string literals removed, and nothing else changed.", "quantifier": "every valid JSON text", "why_tests_cant": "Byte-exact identity over all texts; the 37 roundtrip files sample it.", "anchors": ["zzzjson.h:zj_ParseFast", "zzzjson.h:zj_Stringify"]}
{"id": "C06", "title": "Stringify output is valid JSON and parses back to the same value", "statement": "For every value that the API can build, Stringify terminates, returns a valid JSON text, and parsing that text gives an equal value.", "quantifier": "every non-empty value that satisfies the library's invariant (in particular every value produced by parsing and by the checked setters)", "why_tests_cant": "Ranges over all trees and all build histories.", "anchors": ["zzzjson.h:zj_Stringify", "zzzjson.h:zj_ParseFast", "zzzjson.h:zj_appendStr", "zzzjson.h:zj_appendChar"]}
{"id": "C07", "title": "Reading does not write", "statement": "Stringify, Copy and all Get*/Type/SizeOf/ObjGet/ArrayGet/Begin/Next/IsNull calls change no value's content: what any other call would return before is what it returns after.", "quantifier": "every value, every sequence of reading calls", "why_tests_cant": "Absence of an effect on all other values in all states.", "anchors": ["zzzjson.h:zj_Stringify", "zzzjson.h:zj_GetStr", "zzzjson.h:zj_ObjGet", "zzzjson.h:zj_ArrayGet", "zzzjson.h:zj_Begin", "zzzjson.h:zj_Next", "zzzjson.h:zj_Copy"]}
{"id": "C08", "title": "ParseLen looks at exactly the len bytes it is given", "statement": "ParseLen(v,s,len) returns true iff the len bytes at s are a JSON text; it reads no byte at or after s+len of the caller's memory.", "quantifier": "every buffer and every len up to its size, including buffers with 0 bytes inside and buffers without terminator", "why_tests_cant": "All lengths and all embedded-0 positions.", "anchors": ["zzzjson.h:zj_ParseLen", "zzzjson.h:zj_ParseFast"]}
{"id": "C09", "title": "The copying calls do not keep the caller's memory", "statement": "After Parse, ParseLen, SetStr, SetStrLen, SetNumStr, SetNumStrLen, SetKey, SetKeyLen the caller may overwrite or free the buffer it passed: no value changes.", "quantifier": "every argument text, every later modification of the caller's buffer", "why_tests_cant": "Aliasing shows only under particular later writes, any of which must be harmless.", "anchors": ["zzzjson.h:zj_Parse", "zzzjson.h:zj_ParseLen", "zzzjson.h:zj_SetStr", "zzzjson.h:zj_SetStrLen", "zzzjson.h:zj_SetNumStr", "zzzjson.h:zj_SetNumStrLen", "zzzjson.h:zj_SetKey", "zzzjson.h:zj_SetKeyLen"]}
{"id": "C10", "title": "String setters accept exactly the valid string bodies", "statement": "SetStr/SetStrFast/SetKey/SetKeyFast return true iff the text between two quotes would be a JSON string that Parse accepts; on false the value is unchanged.", "quantifier": "every 0-terminated byte string", "why_tests_cant": "Infinite input space with the boundary in the escape grammar.", "anchors": ["zzzjson.h:zj_checkStr", "zzzjson.h:zj_SetStr", "zzzjson.h:zj_SetStrFast", "zzzjson.h:zj_SetKey", "zzzjson.h:zj_SetKeyFast"]}
{"id": "C11", "title": "Number setters accept exactly the JSON numbers", "statement": "SetNumStr/SetNumStrFast return true iff the whole argument is a JSON number; on success GetNumStr returns it byte for byte, on false the value is unchanged.", "quantifier": "every 0-terminated byte string", "why_tests_cant": "Infinite input space (arbitrarily long digit strings).", "anchors": ["zzzjson.h:zj_checkNum", "zzzjson.h:zj_SetNumStr", "zzzjson.h:zj_SetNumStrFast", "zzzjson.h:zj_GetNumStr"]}
{"id": "C12", "title": "The Len setters judge exactly len bytes", "statement": "SetStrLen/SetStrLenFast/SetKeyLen/SetKeyLenFast/SetNumStrLen/SetNumStrLenFast accept iff the len bytes given (which may contain 0 bytes and need no terminator) are a valid string body or number; the outcome does not depend on earlier calls.", "quantifier": "every byte buffer, every len, every history of earlier Len-setter calls (they share one cache)", "why_tests_cant": "The shared cache makes the result depend on history unless proved otherwise.", "anchors": ["zzzjson.h:zj_checkStrLen", "zzzjson.h:zj_checkNumLen", "zzzjson.h:zj_stringCache", "zzzjson.h:zj_SetStrLen", "zzzjson.h:zj_SetNumStrLen"]}
{"id": "C13", "title": "Escape and unescape are inverse", "statement": "After SetStrEscape(v,s) (or SetStrLenEscape / SetKeyEscape / SetKeyLenEscape) GetUnEscapeStr (GetUnEscapeKey) returns exactly s.", "quantifier": "every byte string (any bytes 1..255; for the Len variants also 0, where the returned buffer holds the 0 byte)", "why_tests_cant": "256^n inputs for every n.", "anchors": ["zzzjson.h:zj_escapeStr", "zzzjson.h:zj_escapeStrLen", "zzzjson.h:zj_escapeChars", "zzzjson.h:zj_unEscapeStr", "zzzjson.h:zj_SetStrEscape", "zzzjson.h:zj_GetUnEscapeStr"]}
{"id": "C14", "title": "Escaping setters always succeed and store valid JSON", "statement": "SetStrEscape, SetStrLenEscape, SetKeyEscape, SetKeyLenEscape never refuse a text (a key is refused only where keys are not allowed at all, on array elements), and what they store is a valid JSON string body.", "quantifier": "every byte string", "why_tests_cant": "All inputs; a refusal for one byte in one position would be missed by sampling.", "anchors": ["zzzjson.h:zj_escapeStr", "zzzjson.h:zj_escapeStrLen", "zzzjson.h:zj_checkStr", "zzzjson.h:zj_SetStrFast"]}
{"id": "C15", "title": "GetUnEscapeStr decodes escapes as the standard says", "statement": "For every string value GetUnEscapeStr/GetUnEscapeKey returns the concatenation of the denoted characters: plain bytes unchanged, short escapes to their control/quote character, \\uXXXX and surrogate pairs to the UTF-8 encoding of the code point; it terminates and writes no more bytes than it allocated.", "quantifier": "every valid string body", "why_tests_cant": "All bodies, all code points, and a memory bound on all of them.", "anchors": ["zzzjson.h:zj_unEscapeStr", "zzzjson.h:zj_addUTF8", "zzzjson.h:zj_GetUnEscapeStr", "zzzjson.h:zj_GetUnEscapeKey"]}
{"id": "C16", "title": "ObjGet finds the first member with that key", "statement": "ObjGet/ObjGetLen on an object return a handle on the first member whose key text equals the given bytes exactly, and null when there is none or the value is not an object.", "quantifier": "every object (any number of members, duplicates, empty keys), every key", "why_tests_cant": "All member lists and keys.", "anchors": ["zzzjson.h:zj_ObjGet", "zzzjson.h:zj_ObjGetLen", "zzzjson.h:zj_strIsEqual", "zzzjson.h:zj_strIsEqualLen"]}
{"id": "C17", "title": "ArrayGet and SizeOf agree with the element list", "statement": "SizeOf returns the number of children of an array or object and 0 otherwise; ArrayGet(i) returns a handle on the i-th element for every i < SizeOf and null for every other i.", "quantifier": "every container, every index", "why_tests_cant": "All sizes and indices, after any history.", "anchors": ["zzzjson.h:zj_SizeOf", "zzzjson.h:zj_ArrayGet"]}
{"id": "C18", "title": "Begin/Next enumerate every child once, in order", "statement": "Starting at Begin and following Next visits each child of an array or object exactly once, in order, and then returns null.", "quantifier": "every container", "why_tests_cant": "All lengths.", "anchors": ["zzzjson.h:zj_Begin", "zzzjson.h:zj_Next"]}
{"id": "C19", "title": "Copy is an equal and independent deep copy", "statement": "Copy(v) terminates and returns a value with the same content (and key); later changes of the original do not affect the copy and vice versa; the original is unchanged. Copy of an empty value returns null.", "quantifier": "every value of any depth and width, every later change of either side", "why_tests_cant": "All trees and all later mutations.", "anchors": ["zzzjson.h:zj_Copy", "zzzjson.h:zj_ValueCopyFrom"]}
{"id": "C20", "title": "Move detaches exactly the given value", "statement": "Move(v) makes v a root of its own with unchanged content and removes it from its parent, whose other children keep content and order; the parent remains fully usable: any later call on it behaves as on a freshly parsed container with the same children.", "quantifier": "every position of the child (first, middle, last, only), every later call sequence on the parent", "why_tests_cant": "The damage of a wrong back link shows only in particular later calls.", "anchors": ["zzzjson.h:zj_Move", "zzzjson.h:zj_ArrayDel", "zzzjson.h:zj_ObjDel", "zzzjson.h:zj_ArrayAdd"]}
{"id": "C21", "title": "ArrayAdd/ObjAdd append a copy", "statement": "ArrayAdd(v,vv) on an array (ObjAdd on an object, when vv has a key) returns true, appends one child equal to vv at the end, leaves vv, its tree and all earlier children unchanged; in every other case it returns false and changes nothing.", "quantifier": "every container and every source value (including vv = v, an ancestor or a child of v)", "why_tests_cant": "All shapes and aliasing cases.", "anchors": ["zzzjson.h:zj_ArrayAdd", "zzzjson.h:zj_ObjAdd", "zzzjson.h:zj_Copy"]}
{"id": "C22", "title": "ArrayAddFast/ObjAddFast move the value into the container", "statement": "ArrayAddFast(v,vv)/ObjAddFast(v,vv) return true, move vv's tree to the end of v, and leave vv empty; afterwards v is a finite tree (Stringify terminates).", "quantifier": "every container and every source value, including sources that contain the container", "why_tests_cant": "All shapes and aliasing cases.", "anchors": ["zzzjson.h:zj_ArrayAddFast", "zzzjson.h:zj_ObjAddFast", "zzzjson.h:zj_Move"]}
{"id": "C23", "title": "Set assigns a copy", "statement": "Set(v,vv) gives v the content of vv and keeps v's own key and position; vv is unchanged and independent; v is then usable like any value with that content (for example appending to it appends).", "quantifier": "every pair of values, every later call sequence", "why_tests_cant": "The assigned value must be right in all later uses.", "anchors": ["zzzjson.h:zj_Set", "zzzjson.h:zj_Copy"]}
{"id": "C24", "title": "SetFast assigns by moving", "statement": "SetFast(v,vv) gives v the content of vv, keeps v's key and position, removes vv from its old parent and leaves vv empty; afterwards v is a finite tree.", "quantifier": "every pair of values, including vv an ancestor or descendant of v", "why_tests_cant": "All shapes and aliasing cases.", "anchors": ["zzzjson.h:zj_SetFast", "zzzjson.h:zj_Move"]}
{"id": "C25", "title": "ArrayDel/ObjDel delete exactly one child, repeatedly", "statement": "ArrayDel(v,i) removes the i-th element (returns false and changes nothing if there is none), ObjDel(v,key) the first member with that key; any sequence of deletions and additions behaves like the same operations on a list.", "quantifier": "every container, every sequence of deletions and additions", "why_tests_cant": "Sequences: the defect needs two operations in a particular order.", "anchors": ["zzzjson.h:zj_ArrayDel", "zzzjson.h:zj_ObjDel", "zzzjson.h:zj_Move"]}
{"id": "C26", "title": "A setter changes only its target", "statement": "SetNull, SetBool, SetNumStr*, SetStr*, SetInt/Long/LongLong, SetArray, SetObj change the content of the target (keeping its key and its place in its parent) and of no value outside it.", "quantifier": "every target (empty, root, child), every other value", "why_tests_cant": "Frame property over all other values.", "anchors": ["zzzjson.h:zj_SetNull", "zzzjson.h:zj_SetBool", "zzzjson.h:zj_SetNumStr", "zzzjson.h:zj_SetStr", "zzzjson.h:zj_SetArray", "zzzjson.h:zj_SetObj", "zzzjson.h:zj_SetInt"]}
{"id": "C27", "title": "Arena allocations never overlap", "statement": "Any sequence of requests to one allocator yields regions that lie inside memory obtained from malloc and are pairwise disjoint, and every request terminates.", "quantifier": "every sequence of request sizes", "why_tests_cant": "Sizes and sequences are unbounded; 32-bit wrap-around is out of reach of tests.", "anchors": ["zzzjson.h:zj_allocatorAlloc", "zzzjson.h:zj_allocatorAppendChild", "zzzjson.h:zj_NewAllocator"]}
{"id": "C28", "title": "ReleaseAllocator frees everything exactly once", "statement": "After any sequence of requests ReleaseAllocator passes every block the allocator obtained from malloc to free exactly once, and nothing else.", "quantifier": "every sequence of requests", "why_tests_cant": "Any number of blocks.", "anchors": ["zzzjson.h:zj_ReleaseAllocator", "zzzjson.h:zj_allocatorAppendChild"]}
{"id": "C29", "title": "Allocators are isolated", "statement": "Releasing one allocator does not affect values created with another allocator, nor the behaviour of later calls on them.", "quantifier": "every interleaving of calls on two allocators and releases", "why_tests_cant": "Depends on the order of calls across allocators.", "anchors": ["zzzjson.h:zj_stringCache", "zzzjson.h:zj_checkStrLen", "zzzjson.h:zj_checkNumLen", "zzzjson.h:zj_Copy", "zzzjson.h:zj_ReleaseAllocator"]}
{"id": "C30", "title": "Integers round-trip", "statement": "After SetInt/SetLong/SetLongLong(n) the value is a number whose text is the decimal representation of n (a valid JSON number), and GetInt/GetLong/GetLongLong return n.", "quantifier": "every int / long / long long including the extreme values", "why_tests_cant": "2^64 values; the buffer bound must hold for all.", "anchors": ["zzzjson.h:zj_SetInt", "zzzjson.h:zj_SetLong", "zzzjson.h:zj_SetLongLong", "zzzjson.h:zj_GetInt", "zzzjson.h:zj_GetLong", "zzzjson.h:zj_GetLongLong", "zzzjson.h:zj_intToStr", "zzzjson.h:zj_strToInt"]}
{"id": "C31", "title": "Numeric getters convert exactly the stored number text", "statement": "GetInt/GetLong/GetLongLong/GetDouble convert the number text that GetNumStr returns, whatever memory follows it, for every stored number.", "quantifier": "every number value, however it was stored (parsed, SetNumStr, SetNumStrLenFast, copied), every content of the surrounding memory", "why_tests_cant": "Depends on bytes that lie behind the text in memory.", "anchors": ["zzzjson.h:zj_strToInt", "zzzjson.h:zj_strToLong", "zzzjson.h:zj_strToLongLong", "zzzjson.h:zj_strToDouble", "zzzjson.h:zj_GetLong", "zzzjson.h:zj_SetNumStr"]}
{"id": "C32", "title": "Typed access is exact", "statement": "Type, GetBool, IsNull, GetStr, GetNumStr, GetKey return the value's type, truth value, text and key; each returns null (false) when the value is empty or of another type.", "quantifier": "every value", "why_tests_cant": "All values and all type mismatches.", "anchors": ["zzzjson.h:zj_Type", "zzzjson.h:zj_GetBool", "zzzjson.h:zj_IsNull", "zzzjson.h:zj_GetStr", "zzzjson.h:zj_GetNumStr", "zzzjson.h:zj_GetKey", "zzzjson.h:zj_GetStrFast"]}
{"id": "C33", "title": "SetKey renames members and is refused on array elements", "statement": "SetKey/SetKeyFast/SetKeyLen/SetKeyLenFast set the key of a root value or object member without changing its content; on an element of an array they return false and change nothing; an empty value becomes null with that key.", "quantifier": "every value and every valid key", "why_tests_cant": "All states of the target.", "anchors": ["zzzjson.h:zj_SetKey", "zzzjson.h:zj_SetKeyFast", "zzzjson.h:zj_SetKeyLen", "zzzjson.h:zj_SetKeyLenFast"]}
{"id": "C34", "title": "Objects handed out by the allocator are aligned", "statement": "Every structure the library places in the arena (values, nodes) lies at an address aligned for its pointers.", "quantifier": "every sequence of API calls", "why_tests_cant": "Alignment depends on all earlier request sizes; x86 hides it.", "anchors": ["zzzjson.h:zj_allocatorAlloc", "zzzjson.h:zj_NewValue", "zzzjson.h:zj_ParseLen"]}
{"id": "C35", "title": "Every guarded history refines an abstract document forest", "statement": "For every sequence of API calls within the documented preconditions, each call returns what the same call returns on an abstract forest of JSON documents, and the concrete state keeps representing that forest.", "quantifier": "every finite sequence of calls", "why_tests_cant": "Histories are unbounded.", "anchors": ["zzzjson.h:zj_ParseFast", "zzzjson.h:zj_Stringify", "zzzjson.h:zj_Move", "zzzjson.h:zj_ArrayAdd", "zzzjson.h:zj_ObjAdd", "zzzjson.h:zj_SetNull"]}
{"id": "C36", "title": "Parsing into a child replaces it in place", "statement": "Parse on a handle of a child replaces the content of that child, keeps its key and position, and changes nothing else in the tree.", "quantifier": "every tree, every child, every valid text", "why_tests_cant": "All positions and texts.", "anchors": ["zzzjson.h:zj_ParseFast"]}
{"id": "C37", "title": "Insignificant whitespace never matters", "statement": "Two texts that differ only in whitespace outside string literals, placed where the grammar allows it, parse to equal values.", "quantifier": "every valid text and every placement of whitespace", "why_tests_cant": "Infinite placements.", "anchors": ["zzzjson.h:zj_peek", "zzzjson.h:zj_likelyPeekAndConsume", "zzzjson.h:zj_skin"]}
{"id": "C38", "title": "String building is concatenation", "statement": "The internal string builder behind Stringify and the Len setters holds, after any sequence of appends, exactly the concatenation of what was appended, across every reallocation.", "quantifier": "every sequence of appends of any sizes", "why_tests_cant": "Reallocation points depend on all sizes.", "anchors": ["zzzjson.h:zj_newString", "zzzjson.h:zj_appendStr", "zzzjson.h:zj_appendChar", "zzzjson.h:zj_appendEnd", "zzzjson.h:zj_reset"]}
{"id": "C39", "title": "SetDouble stores a JSON number", "statement": "SetDouble/SetNum(d) stores a text that is a valid JSON number, so that Stringify remains valid JSON.", "quantifier": "every double, including infinities and NaN", "why_tests_cant": "2^64 values.", "anchors": ["zzzjson.h:zj_SetDouble", "zzzjson.h:zj_SetNum", "zzzjson.h:zj_doubleToStr"]}
{"id": "C40", "title": "Nesting depth is unlimited", "statement": "Parse, Stringify and Copy succeed on arrays and objects nested to any depth (no recursion limit).", "quantifier": "every nesting depth n", "why_tests_cant": "Depth is unbounded.", "anchors": ["zzzjson.h:zj_ParseFast", "zzzjson.h:zj_Stringify", "zzzjson.h:zj_ValueCopyFrom"]}
{"id": "C41", "title": "Doubles round-trip", "statement": "GetDouble (GetNum) after SetDouble (SetNum) returns the very double that was set, and the value is a JSON number in between.", "quantifier": "every finite double, subnormals and both zeros included", "why_tests_cant": "2^64 values; the rounding of 17 digits at powers of two and in the subnormal range is the difficult part.", "anchors": ["zzzjson.h:zj_SetDouble", "zzzjson.h:zj_doubleToStr", "zzzjson.h:zj_GetDouble", "zzzjson.h:zj_strToDouble"]}
{"id": "C42", "title": "Allocators keep their regions apart in every configuration", "statement": "Whatever zj_SIZE_TYPE, zj_DELTA and zj_ALLOCATOR_INIT_MEMSIZE are set to: any requests that together need no more than INIT*DELTA^K bytes, where that many bytes and a header still fit the size type, are served; every region lies within a block obtained from malloc and no two regions share a byte. With powers of two as initial size and growth factor, a request beyond the largest such size never returns; with a growth factor of 0 or 1, or an initial size of 0, no request that exceeds the first block returns.", "quantifier": "every width of the size type, growth factor, initial size and size of the structures; every list of requests", "why_tests_cant": "A test runs one build of the header; here every setting is covered, up to sizes of gigabytes.", "anchors": ["zzzjson.h:zj_NewAllocator", "zzzjson.h:zj_allocatorAlloc", "zzzjson.h:zj_allocatorAppendChild", "zzzjson.h:zj_DELTA", "zzzjson.h:zj_ALLOCATOR_INIT_MEMSIZE", "zzzjson.h:zj_SIZE_TYPE"]}
{"id": "C43", "title": "Allocators obtain little more memory than requested, in few blocks", "statement": "With a growth factor of at least 2, an allocator that served requests of n bytes in total has obtained from malloc at most max(2*INIT, 2*DELTA*n) bytes and a header per block, and the number of blocks is at most logarithmic in n: with m >= 2 blocks, INIT*DELTA^(m-2) < n.", "quantifier": "every configuration as in C42 with growth factor at least 2; every list of requests", "why_tests_cant": "A bound over all request sequences and all settings.", "anchors": ["zzzjson.h:zj_NewAllocator", "zzzjson.h:zj_allocatorAlloc", "zzzjson.h:zj_allocatorAppendChild"]}
{"id": "C44", "title": "The text builder stays in its buffer in every configuration", "statement": "With a growth factor of at least 2 and an initial buffer of at least 1 byte, building a text (as Stringify does) by appending strings and characters never writes outside the buffer and requests at most 2*DELTA times the length of the text from the allocator besides the initial buffer. With a growth factor of 0 or 1, or an initial buffer of 0 bytes, appending a character to a full buffer writes outside of it.", "quantifier": "every width of the size type, growth factor and initial buffer size; every sequence of appends", "why_tests_cant": "Each setting is another build of the header; the sequences of appends are unbounded.", "anchors": ["zzzjson.h:zj_appendStr", "zzzjson.h:zj_appendChar", "zzzjson.h:zj_newString", "zzzjson.h:zj_STRING_INIT_MEMSIZE", "zzzjson.h:zj_DELTA"]}
{"id": "C45", "title": "The C++ allocator object works like NewAllocator and ReleaseAllocator", "statement": "At any point of any program, constructing a zj::Allocator gives an allocator on which values can be made without disturbing any document, and destroying it frees exactly the blocks obtained for it, each once, leaving other allocators and the documents that do not depend on it unchanged. Destroying a copy of the object as well is an error.", "quantifier": "every state of the library, every sequence of requests", "why_tests_cant": "Object lifetimes in arbitrary programs; a leak or double free depends on how many chunks were appended.", "anchors": ["zzzjson.h:zj_Allocator::zj_Allocator", "zzzjson.h:zj_Allocator::~zj_Allocator"]}
{"id": "C46", "title": "Programs do not leak", "statement": "At any moment of any program of API calls, whether these succeed or fail, every block of memory in use is a static text of the library, a text the caller lent to ParseFast or a Fast setter, or belongs to an allocator that was made and not yet released. After all allocators have been released, only the static and the lent texts remain; there are exactly as many lent texts as such calls.", "quantifier": "every finite sequence of calls on any number of allocators and groups, every argument", "why_tests_cant": "A leak needs a particular interleaving of copies, chunk growth, the shared scratch string and failing parses; leak checkers only see the runs they are given.", "anchors": ["zzzjson.h:zj_NewAllocator", "zzzjson.h:zj_ReleaseAllocator", "zzzjson.h:zj_allocatorAlloc", "zzzjson.h:zj_allocatorAppendChild", "zzzjson.h:zj_Parse", "zzzjson.h:zj_Copy"]}
{"id": "C47", "title": "The counters of the test mode count exactly", "statement": "Compiled with zj_MEMORY_MODE 2, after any program AllocMemoryCount minus FreeMemoryCount is (modulo 2^32) the number of blocks in use that are neither static texts nor buffers of the caller; with fewer than 2^32 such blocks the two counters are equal if and only if the library holds nothing. They are equal after every program that releases all its allocators, and without releases AllocMemorySize is the sum of the sizes of these blocks modulo 2^32.", "quantifier": "every finite sequence of calls on any number of allocators and groups, every argument, every order of releases", "why_tests_cant": "The project's tests compare the counters themselves; that the comparison detects every leak and never reports a false one is a statement about all programs.", "anchors": ["zzzjson.h:zj_new", "zzzjson.h:zj_free", "zzzjson.h:AllocMemoryCount", "zzzjson.h:zj_ReleaseAllocator", "test/function/function_test.cpp:18"]}
{"id": "C48", "title": "The classes of zzzjson.hpp answer like the C interface and free everything", "statement": "A program written with zzzjson::Allocator and zzzjson::Value gets the same answers as the same program written with the C functions, where every wrapper object costs 8 bytes of the allocator of its value, the method NewValue makes a value in the allocator of its object, and SetNumStrLenFast checks and copies as SetNumStrLen does. Wrapper objects keep pointing to their values whatever is called later. When the scope ends, the destructors run without error and leave nothing in use but the static texts and the texts lent to Fast calls.", "quantifier": "every finite sequence of method calls on any number of allocators, every argument within the contract of the C interface", "why_tests_cant": "The wrapper objects live in the same arenas as the documents; that no later call overwrites or moves them is a statement about all programs.", "anchors": ["zzzjson.hpp:Value::innerNew", "zzzjson.hpp:Value::NewValue", "zzzjson.hpp:Allocator::~Allocator", "zzzjson.hpp:Value::SetNumStrLenFast"]}
{"id": "C49", "title": "Calls touch only their own memory", "statement": "A call depends only on memory it can reach from its arguments, the static texts and the library's scratch string. Take away any set of memory blocks: if the call still succeeds, then with these blocks present - holding whatever bytes or objects, whole or damaged - it gives the same answer, changes everything else in the same way and leaves the blocks as they are. Hence a program within the contract can be run in a process whose other memory is arbitrary: it gets its answers and changes nothing that belongs to others. The one exception are the setters that take a length: they write to a scratch string that lives in the allocator of whoever called such a setter first.", "quantifier": "every call with every argument in every memory, every set of blocks; every program with releases, every contents of the other memory", "why_tests_cant": "That a call does not read or write somewhere is a statement about all memories; a test has one memory and sees a few bytes of it.", "anchors": ["zzzjson.h:zj_allocatorAlloc", "zzzjson.h:zj_stringCache", "zzzjson.h:zj_checkStrLen", "zzzjson.h:zj_ReleaseAllocator"]}
{"id": "C50", "title": "An allocator holds little more memory than was asked for", "statement": "Whatever a program calls, as long as it has not crashed no allocator consists of more than 20 blocks. For every program within the contract, at every moment, an allocator holds at most four times the bytes asked of it plus the block headers (but never less than its first 4096 bytes), in a number of blocks logarithmic in the bytes asked for. Parsing a JSON text of n bytes into a fresh allocator and printing it leaves the allocator with at most 308*n + 4592 bytes, however the text is nested.", "quantifier": "every program of API calls and releases; every JSON text up to 13.9 million bytes", "why_tests_cant": "A bound on memory for all programs and all texts; a test measures a few.", "anchors": ["zzzjson.h:zj_allocatorAlloc", "zzzjson.h:zj_allocatorAppendChild", "zzzjson.h:zj_NewAllocator"]}
{"id": "C51", "title": "Work is linear: no loop visits a value more than a constant number of times", "statement": "Every call that walks a document (printing, copying, adding, setting, searching, indexing, deleting) finishes, and none of its loops goes round more often than twice the number of values in the document it prints or copies plus the number of direct members of the container it searches or rewires. Hence in every program within the contract no loop goes round more often than three times the number of values made, nor more than once for each 24 bytes asked of the allocators; parsing a JSON text of n bytes and printing it takes at most 2*n rounds.", "quantifier": "every program of API calls within the contract (with releases for the first part); every JSON text up to 13.9 million bytes", "why_tests_cant": "Termination with a linear bound for all documents and all histories of edits; a test times a few documents, and a walk that loops on one link shape is found only if that shape occurs.", "anchors": ["zzzjson.h:zj_Stringify", "zzzjson.h:zj_Copy", "zzzjson.h:zj_ObjGet", "zzzjson.h:zj_ArrayGet"]}
{"id": "C52", "title": "Programs that react to the answers behave as on abstract documents", "statement": "Take any client program that decides after each API call, from its answer, what to call next, and that may hand the pointer a getter returned straight to a setter. If on abstract documents (trees of JSON values) the program runs within the contract and gives a result, then on the code it runs without touching memory the library does not own, without looping forever, gives the same result, and leaves the same documents and values; and at every point every value holds a valid JSON document.", "quantifier": "every client program with unbounded control flow depending on the answers", "why_tests_cant": "A test is one client; this is about all clients, including loops whose length depends on the document.", "anchors": ["sample/c/sample.c:GetAndSet", "zzzjson.h:zj_GetKey", "zzzjson.h:zj_SetKeyFast", "zzzjson.h:zj_SetStrLenFast", "zzzjson.h:zj_Next"]}
{"id": "C53", "title": "The deep copy in the samples reproduces every document", "statement": "The recursive copy function of the C and C++ samples, run on the value of any JSON text up to 3 million bytes, yields a value that prints exactly as the original; texts that are not JSON are refused. The same holds wherever a client calls it, with source and copy in any allocators, and no other value changes.", "quantifier": "every JSON text; every client state; both samples", "why_tests_cant": "The samples run it on one literal; the claim is about all documents of any shape and depth.", "anchors": ["sample/c/sample.c:GetAndSet", "sample/c++/sample.cpp:GetAndSet", "zzzjson.h:zj_ArrayAddFast", "zzzjson.h:zj_ObjAddFast"]}
{"id": "C54", "title": "The beta header parses exactly JSON", "statement": "In the beta header, parsing a NUL-terminated text that stays in place succeeds exactly if the text is JSON; the value then holds the document of the text, and every other value keeps its own. A refused text changes no document.", "quantifier": "every byte string, every state of the library, every value", "why_tests_cant": "Acceptance is over all byte strings and all states; the beta header has its own copy of the parser with extra cache handling.", "anchors": ["beta/zzzjson_beta.h:z_ValueParse", "beta/zzzjson_beta.h:z_ValueParseFast"]}
{"id": "C55", "title": "The beta parse with a length reads exactly that many bytes", "statement": "In the beta header, parsing a buffer with a given length decides about these bytes only: bytes after them neither matter nor are read, and the buffer need not be terminated.", "quantifier": "every buffer, length and state", "why_tests_cant": "The defect shows only for buffers whose length is not the position of the terminator; tests pass strlen.", "anchors": ["beta/zzzjson_beta.h:z_ValueParseLen"]}
{"id": "C56", "title": "The copying calls of the beta header keep their own copy", "statement": "After a copying call of the beta header (parse, parse with length, string, number and key setters) the caller may change or free its buffer without any effect on the documents.", "quantifier": "every text, state and later change of the buffer", "why_tests_cant": "A test would have to overwrite the buffer after every call and compare all documents.", "anchors": ["beta/zzzjson_beta.h:z_ValueParse", "beta/zzzjson_beta.h:z_ValueParseLen", "beta/zzzjson_beta.h:z_ValueSetStr", "beta/zzzjson_beta.h:z_ValueSetNumStr", "beta/zzzjson_beta.h:z_ValueSetKey"]}
{"id": "C57", "title": "Remembered answers of the beta header are current", "statement": "A getter of the beta header answers the text, number or key the value holds now, whatever was asked or set before.", "quantifier": "every program of API calls", "why_tests_cant": "Staleness depends on the order of getter and setter calls on several value objects of one node.", "anchors": ["beta/zzzjson_beta.h:z_ValueGetString", "beta/zzzjson_beta.h:z_ValueGetNumStr", "beta/zzzjson_beta.h:z_ValueGetKey", "beta/zzzjson_beta.h:z_ValueGetUnEscapeKey", "beta/zzzjson_beta.h:z_ValueGetUnEscapeString", "beta/zzzjson_beta.h:z_ValueGetNum", "beta/zzzjson_beta.h:z_ValueInitCache"]}
{"id": "C58", "title": "The beta header never confuses a remembered number with a remembered string", "statement": "In the beta header, asking a value for its unescaped string never answers a pointer to a double, and asking for its number never answers a pointer to a text.", "quantifier": "every program of API calls", "why_tests_cant": "Type confusion needs two value objects for one node and a change of type between two getters.", "anchors": ["beta/zzzjson_beta.h:z_ValueGetNum", "beta/zzzjson_beta.h:z_ValueGetUnEscapeString"]}
{"id": "C59", "title": "Assigning to a member in the beta header keeps the member's key", "statement": "Setting a member of an object to another value (copying or moving) in the beta header changes its value but not its key, and no key elsewhere.", "quantifier": "every pair of values in every state", "why_tests_cant": "Needs source and target that are both members, with different keys.", "anchors": ["beta/zzzjson_beta.h:z_ValueSet", "beta/zzzjson_beta.h:z_ValueSetFast"]}
{"id": "C60", "title": "Doubles survive the beta header; infinities and NaN are refused", "statement": "In the beta header, a finite double that is set is read back as the same double; setting an infinity or a NaN answers false and changes nothing.", "quantifier": "all 2^64 doubles, every state", "why_tests_cant": "The round trip is about every double, and about rounding in both directions.", "anchors": ["beta/zzzjson_beta.h:z_ValueSetNum", "beta/zzzjson_beta.h:z_ValueGetNum"]}
{"id": "C61", "title": "Programs over the beta header behave as on documents with remembered answers", "statement": "Any sequence of calls of the beta header that is within the contract on abstract documents, where each value object carries the answers it remembers, runs on the code without touching memory the library does not own, without looping forever, gives the same answers and leaves the same documents.", "quantifier": "every program of API calls", "why_tests_cant": "Tests are single programs; this covers all sequences of calls, including all states of the caches.", "anchors": ["beta/zzzjson_beta.h:z_ValueSet", "beta/zzzjson_beta.h:z_ValueCopy", "beta/zzzjson_beta.h:z_ValueMove", "beta/zzzjson_beta.h:z_ValueArrayAdd", "beta/zzzjson_beta.h:z_ValueObjAddFast", "beta/zzzjson_beta.h:z_ValueArrayDel", "beta/zzzjson_beta.h:z_ValueStringify"]}
{"id": "C62", "title": "Documents of the beta header are always JSON", "statement": "After any sequence of calls of the beta header, successful or not, every value reads as a well-formed JSON document, and every text that Stringify answers is JSON (or empty for an empty value), also where a key was taken over from another value or an answer was remembered too long.", "quantifier": "every program of API calls", "why_tests_cant": "Holds for all sequences of setters, getters, moves and assignments; the taken-over keys and stale caches have to be excluded as a source of broken text.", "anchors": ["beta/zzzjson_beta.h:z_ValueStringify", "beta/zzzjson_beta.h:z_ValueSet", "beta/zzzjson_beta.h:z_ValueSetFast", "beta/zzzjson_beta.h:z_ValueSetNum"]}
{"id": "C63", "title": "Both headers give the same answers", "statement": "A program of the calls both headers have, that never holds two value objects of one node, never sets a value that has a key to another that has one, and terminates the buffers it parses by length, gets the same answers from zzzjson.h and from the beta header and leaves the same documents.", "quantifier": "every program of API calls", "why_tests_cant": "Compares two implementations over all programs; a differential test samples a few.", "anchors": ["beta/zzzjson_beta.h:z_ValueParse", "zzzjson.h:zj_Parse", "beta/zzzjson_beta.h:z_ValueSet", "zzzjson.h:zj_Set"]}
{"id": "C64", "title": "The beta header keeps groups of allocators apart", "statement": "A program over the beta header that works with several groups of allocators and releases them at any time gets the answers, from documents and from the caches of value objects, and builds the documents that it would if the groups did not know of each other; a group that is not released gets the answers it would get alone. Exception: a setter that takes a length, called after the release of a group in which the library's scratch string may be; it uses freed memory.", "quantifier": "every finite sequence of calls on any number of groups and of releases in any order, every argument within the contract", "why_tests_cant": "The caches of all value objects and the scratch string live in memory shared by all groups; interference needs a particular interleaving of getters, setters and releases.", "anchors": ["beta/zzzjson_beta.h:z_AllocatorRelease", "beta/zzzjson_beta.h:z_StringCache", "beta/zzzjson_beta.h:z_ValueInitCache", "beta/zzzjson_beta.h:z_ValueGetString", "beta/zzzjson_beta.h:z_CheckStrLen"]}
{"id": "C65", "title": "Programs over the beta header do not leak", "statement": "At any moment of any program over the beta header every block of memory in use is a static text, a text the caller handed to a parse call or a Fast setter, or belongs to an allocator that was made and not yet released; after all allocators have been released only the static texts and those of the caller remain, exactly one for each such call. Compiled with z_MEMORY_MODE 2 the counters differ by the number of blocks the library holds (modulo 2^32), so that they are equal if and only if it holds nothing (below 2^32 blocks).", "quantifier": "every finite sequence of calls on any number of allocators and groups, every argument, every order of releases", "why_tests_cant": "A leak needs a particular interleaving of copies, cached texts, chunk growth, the scratch string and failing parses; the tests see the runs they are given.", "anchors": ["beta/zzzjson_beta.h:z_AllocatorNew", "beta/zzzjson_beta.h:z_AllocatorRelease", "beta/zzzjson_beta.h:z_AllocatorAppendChild", "beta/zzzjson_beta.h:z_New", "beta/zzzjson_beta.h:z_Free", "beta/zzzjson_beta.h:z_ValueCopy"]}
{"id": "C66", "title": "Calls of the beta header touch only their own memory", "statement": "A call of the beta header depends only on memory it can reach from its arguments, the static texts, the library's scratch string and what its value objects remember. Take away any set of memory blocks in which the program has no value object and remembers nothing: if the call still succeeds, then with these blocks present - holding whatever bytes, objects or remembered results - it gives the same answer, changes everything else in the same way and leaves the blocks as they are. Hence a program within the contract can be run in a process whose other memory is arbitrary, also where the library will put its value objects: it gets its answers and changes nothing that belongs to others. The exception are, as in zzzjson.h, the setters that take a length.", "quantifier": "every call with every argument in every memory, every set of blocks; every program with releases, every contents of the other memory and of all cache words", "why_tests_cant": "That a call does not read or write somewhere, or never returns a cached pointer that was not initialised, is a statement about all memories; a test has one memory, usually zeroed, and sees a few bytes of it.", "anchors": ["beta/zzzjson_beta.h:z_ValueInitCache", "beta/zzzjson_beta.h:z_ValueInnerNew", "beta/zzzjson_beta.h:z_ValueGetString", "beta/zzzjson_beta.h:z_ValueGetUnEscapeKey", "beta/zzzjson_beta.h:z_ValueSetFast"]}
{"id": "C67", "title": "An allocator of the beta header holds little more memory than was asked for", "statement": "Whatever a program over the beta header calls, as long as it has not crashed no allocator consists of more than 20 blocks. For every program within the contract, at every moment, an allocator holds at most four times the bytes asked of it plus the block headers (but never less than its first 4096 bytes), in a number of blocks logarithmic in the bytes asked for; a getter that answers from a cache asks for nothing. Parsing a JSON text of n bytes into a fresh allocator and printing it leaves the allocator with at most 308*n + 4592 bytes and takes at most 2*n rounds of the printing loop, however the text is nested.", "quantifier": "every program of calls of the beta header and releases; every JSON text up to 13.9 million bytes", "why_tests_cant": "A bound on memory for all programs and all texts; a test measures a few.", "anchors": ["beta/zzzjson_beta.h:z_AllocatorAlloc", "beta/zzzjson_beta.h:z_AllocatorAppendChild", "beta/zzzjson_beta.h:z_AllocatorNew", "beta/zzzjson_beta.h:z_ValueGetString"]}
{"id": "C68", "title": "Work of the beta header is linear", "statement": "Every call of the beta header that walks a document finishes, and none of its loops goes round more often than twice the number of values in the document it prints or copies plus the number of direct members of the container it searches or rewires. Hence in every program within the contract no loop goes round more often than three times the number of values made, nor more than once for each 24 bytes asked of the allocators.", "quantifier": "every program of calls of the beta header within the contract", "why_tests_cant": "Termination with a linear bound for all documents and all histories of edits; a test times a few documents.", "anchors": ["beta/zzzjson_beta.h:z_ValueStringify", "beta/zzzjson_beta.h:z_ValueCopy", "beta/zzzjson_beta.h:z_ValueObjGet", "beta/zzzjson_beta.h:z_ValueArrayGet"]}
{"id": "C69", "title": "Texts got from the beta header can be kept and passed on", "statement": "A text pointer a getter of the beta header gives (string, number text, unescaped string, key, unescaped key, or the variants giving a pointer into the document with a length), or that printing a value gives, points to that same text for as long as the allocator is not released, whatever is called in between: setting, moving or deleting the value, or clearing what the value object remembers. The program may at any time read it or pass it back as the text or key to set, copied or stored as it is, as the key to look for or to delete, or as the text to parse, with the same result as if it passed a copy of its own.", "quantifier": "every client program of the beta header within the contract, deciding by the answers so far, and every pointer it was given", "why_tests_cant": "Dangling or shared text shows only for particular later edits; the claim is for every later history and every use of the pointer.", "anchors": ["beta/zzzjson_beta.h:z_ValueGetString", "beta/zzzjson_beta.h:z_ValueGetKey", "beta/zzzjson_beta.h:z_ValueGetUnEscapeString", "beta/zzzjson_beta.h:z_ValueGetStringFast", "beta/zzzjson_beta.h:z_ValueSetStrFast", "beta/zzzjson_beta.h:z_ValueSetKeyLenFast", "beta/zzzjson_beta.h:z_ValueObjGet", "beta/zzzjson_beta.h:z_ValueStringify", "beta/zzzjson_beta.h:z_ValueParseFast", "beta/zzzjson_beta.h:z_ValueObjDel"]}
{"id": "C70", "title": "Texts got from zzzjson.h can be kept and passed on", "statement": "A text pointer that a getter of zzzjson.h (string, number text, unescaped string, key, unescaped key, or the variants giving a pointer into the document with a length) or zj_Stringify gives points to that same text for as long as the allocator is not released, whatever is called in between: setting, moving, deleting or printing values, or setting texts with a length, which uses a shared scratch string. The program may at any time read the text or pass the pointer back to any call taking a text: to parse it, in place or copied, as text or key to set, escaped, copied or stored as it is, or as the key to look for or to delete, with the same result as if it passed a copy of its own.", "quantifier": "every client program of zzzjson.h within the contract, deciding by the answers so far, and every pointer it was given", "why_tests_cant": "Dangling or shared text shows only for particular later edits; the claim is for every later history and every use of the pointer, also parsing a printed text in place.", "anchors": ["zzzjson.h:zj_Stringify", "zzzjson.h:zj_GetStr", "zzzjson.h:zj_GetKeyFast", "zzzjson.h:zj_GetUnEscapeStr", "zzzjson.h:zj_ParseFast", "zzzjson.h:zj_SetStrFast", "zzzjson.h:zj_SetKeyLenEscape", "zzzjson.h:zj_ObjGetLen", "zzzjson.h:zj_ObjDel"]}
{"id": "C71", "title": "Texts got from one document can be put into another one, and the first released", "statement": "A program works with any number of groups of allocators of zzzjson.h and releases groups as it likes. A text pointer that a getter or zj_Stringify gave it for a document of one group points to that same text until that group is released, whatever is called on any group and whichever other groups are released. Until then the program may read the text or pass the pointer to any call on the same group, and to every call on another group that copies the text or only reads it: to parse it, as text or key to set, escaped or not, or as the key to look for or to delete. What the other group got this way stays correct when the group of the text is released.", "quantifier": "every client program of zzzjson.h with any number of groups within the contract, deciding by the answers so far, and every pointer it was given", "why_tests_cant": "A copy that is not one, or memory of one group used by another, shows only when a particular group is released and its memory reused; the claim is for every order of calls and releases.", "anchors": ["zzzjson.h:zj_ReleaseAllocator", "zzzjson.h:zj_GetStr", "zzzjson.h:zj_GetStrFast", "zzzjson.h:zj_Stringify", "zzzjson.h:zj_Parse", "zzzjson.h:zj_SetStr", "zzzjson.h:zj_SetStrLen", "zzzjson.h:zj_SetKeyEscape", "zzzjson.h:zj_ObjGet"]}
{"id": "C72", "title": "Texts got from one document of the beta header can be put into another one, and the first released", "statement": "A program works with any number of groups of allocators of beta/zzzjson_beta.h and releases groups as it likes. A text pointer that a getter or z_ValueStringify gave it for a document of one group points to that same text until that group is released, whatever is called on any group and whichever other groups are released. Until then the program may read the text or pass the pointer to any call on the same group, and to every call on another group that copies the text or only reads it: as text or key to set, as the key to look for or to delete, or to parse it with z_ValueParse. What the other group got this way stays correct when the group of the text is released.", "quantifier": "every client program of the beta header with any number of groups within the contract, deciding by the answers so far, and every pointer it was given", "why_tests_cant": "A copy that is made but not used shows only when a particular group is released and the other one read afterwards; the claim is for every order of calls and releases.", "anchors": ["beta/zzzjson_beta.h:z_AllocatorRelease", "beta/zzzjson_beta.h:z_ValueGetString", "beta/zzzjson_beta.h:z_ValueGetStringFast", "beta/zzzjson_beta.h:z_ValueStringify", "beta/zzzjson_beta.h:z_ValueParse", "beta/zzzjson_beta.h:z_ValueParseLen", "beta/zzzjson_beta.h:z_ValueSetStr", "beta/zzzjson_beta.h:z_ValueSetKey", "beta/zzzjson_beta.h:z_ValueObjGet", "beta/zzzjson_beta.h:z_ValueObjDel"]}
{"id": "C73", "title": "Programs with the classes of zzzjson.hpp may decide by the answers, keep texts and pass them on", "statement": "A program uses zzzjson::Allocator and zzzjson::Value, decides by the answers which method to call next, keeps the text pointers that getters and Stringify gave it, reads them at any later time and passes them to any method. Every answer is the one prescribed for the abstract documents; a kept pointer reads the text it was got for, whatever was called since; what was stored through a kept pointer stays correct. When the program leaves its scope the destructors run without error and free everything it allocated. The same program written with the functions of zzzjson.h gets the same answers.", "quantifier": "every client program of zzzjson.hpp within the contract, deciding by the answers so far, every pointer it was given; the last part for every program whose scope ends", "why_tests_cant": "Programs that react to answers and keep pointers are trees of calls of any depth; a text lost or moved by one combination of calls, or an object freed twice or not at all, shows in few of them.", "anchors": ["zzzjson.hpp:Value::innerNew", "zzzjson.hpp:Value::NewValue", "zzzjson.hpp:Value::Stringify", "zzzjson.hpp:Value::GetStr", "zzzjson.hpp:Value::GetNumFast", "zzzjson.hpp:Value::ParseFast", "zzzjson.hpp:Value::SetNumStrLenFast", "zzzjson.hpp:Value::ObjGet", "zzzjson.hpp:Allocator::~Allocator"]}
{"id": "C74", "title": "Programs with C++ allocator objects see what C programs see, and free everything", "statement": "A program in C++ makes allocators as objects of class zj_Allocator and with NewAllocator, in any number of groups that end when it likes (objects by their destructor, in reverse order, the others by ReleaseAllocator); it decides by the answers, keeps texts and passes them to documents of other groups. Every answer is the one the same program gets in C with NewAllocator and ReleaseAllocator instead of objects. Whatever the program does, as long as it has not crashed, every block in use is static, a buffer of the caller, or belongs to an allocator of a group that has not ended; when all groups have ended, nothing the library allocated is in use.", "quantifier": "every client program of the C++ interface within the contract of C71, with any number of groups; the part about memory in use for every program that has not crashed", "why_tests_cant": "The first block of an allocator object has another layout than that of NewAllocator; a wrong offset or a block missed by the destructor shows only for particular sizes, orders and numbers of blocks. The claim is for all of them.", "anchors": ["zzzjson.h:zj_Allocator::zj_Allocator", "zzzjson.h:zj_Allocator::~zj_Allocator", "zzzjson.h:zj_NewAllocator", "zzzjson.h:zj_ReleaseAllocator", "zzzjson.h:zj_Value::Parse", "zzzjson.h:zj_Value::Stringify"]}
{"id": "C75", "title": "Programs with the classes of zzzjson.hpp work with several scopes of Allocator objects, and free everything", "statement": "A program with the classes of zzzjson.hpp has Allocator objects in any number of groups, each of which is destroyed when the program likes (the last object constructed first); it decides by the answers, keeps texts and passes them to objects of other groups, by copy if the text is of another group. Every answer is the one the documents of the groups say, each group having its own documents, and the one the same program gets with the C interface; destroying a group changes nothing in the others, and a text that was kept is good until its group is destroyed. Whatever the program does, as long as it has not crashed, every block in use is static, a buffer of the caller, or belongs to an Allocator object that was not destroyed; when all are destroyed, nothing the library allocated is in use.", "quantifier": "every client program of the classes within the contract of C73, with any number of groups; the part about memory in use for every program that has not crashed", "why_tests_cant": "A wrapper object or a text that lies in the memory of the wrong Allocator is good until that object is destroyed and its memory used again; tests that end all scopes together never see it. The claim is for all programs and all orders of scopes.", "anchors": ["zzzjson.hpp:Allocator::Allocator", "zzzjson.hpp:Allocator::~Allocator", "zzzjson.hpp:Value::NewValue", "zzzjson.hpp:Value::innerNew", "zzzjson.hpp:Value::SetStrLen", "zzzjson.hpp:Value::Stringify"]}
{"id": "C76", "title": "The short names and the C++ methods of zzzjson.h can be mixed freely with the functions", "statement": "Every function of zzzjson.h does the same under its name, under its short name and as a method of the C++ value, and zj_GetNum and zj_SetNum do what zj_GetDouble and zj_SetDouble do. A program that chooses the interface anew for every call, keeps text pointers and works with several groups of allocators gives the same answers, leaves the same memory and fails in the same cases as the program that uses only the zj_ functions; within the contract of the functions its answers are those the documents say. The same holds in C++ with allocators that are objects, and such a program frees everything when all its allocators have ended. The method Allocator of a value gives the allocator the value was made with, and a program that makes values with it, in the midst of other calls, gets the answers of one that remembers its allocators itself.", "quantifier": "every call from every state; every client program, with any choice of interface for each statement; every value in every state a program reaches", "why_tests_cant": "There are 126 forwarders, and one that calls a neighbour (the variant that keeps the caller's text instead of copying it, or the length variant) passes any test that does not reuse the buffer or release another allocator in between. The claim is for all states and all mixtures.", "anchors": ["zzzjson.h:Parse", "zzzjson.h:SetStrLen", "zzzjson.h:zj_Value::Parse", "zzzjson.h:zj_Value::SetStrLen", "zzzjson.h:zj_Value::Allocator", "zzzjson.h:zj_Value::NewValue", "zzzjson.h:zj_GetNum", "zzzjson.h:zj_SetNum"]}
{"id": "C77", "title": "The short names of the beta header can be mixed freely with the functions", "statement": "Every function of the beta header does the same under its name and under its short name: the same answer, the same memory, the same results remembered in the value objects, and the same failures. A program that chooses the name anew for every call, keeps text pointers and works with several groups of allocators runs exactly as the program that uses only the functions.", "quantifier": "every call from every state; every client program, with any choice of name for each statement", "why_tests_cant": "A short name that calls a neighbour (the variant that keeps the text, or a getter whose remembered result differs) passes tests that do not change the value or the buffer in between. The claim is for all 52 names, all states and all mixtures.", "anchors": ["beta/zzzjson_beta.h:Parse", "beta/zzzjson_beta.h:SetStrLen", "beta/zzzjson_beta.h:GetString", "beta/zzzjson_beta.h:ReleaseAllocator"]}
{"id": "C78", "title": "Programs over the beta header that keep pointers leak nothing", "statement": "A program over the beta header works with several groups of allocators, decides by the answers, keeps the texts it is given and passes them on, under either set of names. Whatever it does, as long as it has not crashed: every block in use is static, a buffer the caller passed to a parse call or to a call that stores without a copy, or belongs to an allocator of a group that was not released. When all groups are released, nothing the library allocated is in use; passing on a kept text leaves no buffer behind.", "quantifier": "every client program that has not crashed, also against the contract; any number of groups; any choice of names", "why_tests_cant": "A copy or a remembered result placed outside the allocators shows up only as memory that grows over long runs, and only for the mixture of calls that makes it. The claim is for all programs.", "anchors": ["beta/zzzjson_beta.h:z_AllocatorRelease", "beta/zzzjson_beta.h:z_AllocatorAlloc", "beta/zzzjson_beta.h:z_ValueGetString", "beta/zzzjson_beta.h:z_ValueParse", "beta/zzzjson_beta.h:z_ValueSetStr", "beta/zzzjson_beta.h:z_ValueStringify"]}
