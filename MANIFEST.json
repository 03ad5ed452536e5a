{
 "claims": [
  {
   "property": "C01",
   "status": "proved",
   "theorems": [
    "C01_parse_accepts_exactly_json",
    "C01_parseFast_accepts_exactly_json"
   ],
   "note": "Parse/ParseFast: every grammatical text is accepted, and whenever the call returns, the result says whether the text is grammatical. The only other outcome is the over-read characterised exactly under C03."
  },
  {
   "property": "C02",
   "status": "proved",
   "theorems": [
    "C02_parse_builds",
    "C02_parseFast_builds"
   ],
   "note": "For every accepted text the value denotes exactly the tree the grammar assigns to the text; all other documents keep their contents."
  },
  {
   "property": "C03",
   "status": "partial",
   "theorems": [
    "C03_refuted",
    "C03_parseFast_terminates_partial",
    "C03_parse_terminates_partial",
    "C03_parseFast_exactly",
    "C03_parse_exactly",
    "C03_parseLen_exactly",
    "C03_cut_invalid"
   ],
   "note": "REFUTED as stated (C03_refuted): the 4-byte loads for null/true/false read past the terminator of a text such as 'n'. Beyond that everything is decided: the calls read outside the buffer exactly for the texts described by cut_literal (C03_*_exactly), none of which is JSON, and return in all other cases."
  },
  {
   "property": "C04",
   "status": "proved",
   "theorems": [
    "C04_parse_fails",
    "C04_parseFast_fails",
    "C04_parseLen_fails"
   ],
   "note": "A refused text leaves every document and every value as it was."
  },
  {
   "property": "C05",
   "status": "proved",
   "theorems": [
    "C05_stringify_parse_minifies"
   ],
   "note": "Stringify after Parse gives the text without insignificant white space."
  },
  {
   "property": "C06",
   "status": "proved",
   "theorems": [
    "C06_stringify_valid",
    "C06_stringify_reparse",
    "C06_programs",
    "C06_programs_again"
   ],
   "note": "For every document with well-formed scalars (json_ok), Stringify prints a grammatical text which parses to the same tree. In whole programs (several groups of allocators, releases) every text Stringify answers is JSON or empty; every value of every covered program can be printed, and parsing and printing the text gives it again (C06_programs, C06_programs_again)."
  },
  {
   "property": "C07",
   "status": "proved",
   "theorems": [
    "C07_reading_call_keeps",
    "C07_reading_calls_keep"
   ],
   "note": "Each reading call, and any sequence of them, leaves every document and every value as it was."
  },
  {
   "property": "C08",
   "status": "partial",
   "theorems": [
    "C08_refuted",
    "C08_parseLen_judges_before0_partial",
    "C08_parseLen_exact_partial"
   ],
   "note": "REFUTED as stated (C08_refuted): a 0 byte inside the given length ends the text. Proved part: the call judges exactly the part before the first 0 byte; with no 0 byte it judges exactly the given length."
  },
  {
   "property": "C09",
   "status": "proved",
   "theorems": [
    "C09_parse",
    "C09_parseLen",
    "C09_setStr",
    "C09_setStrLen",
    "C09_setNumStr",
    "C09_setNumStrLen",
    "C09_setKey",
    "C09_setKeyLen"
   ],
   "note": "For every buffer, every copying call and every later sequence of overwrites and a free of the buffer: all documents and values stay as the call left them. For the string and key calls the accepted texts are those of C10."
  },
  {
   "property": "C10",
   "status": "partial",
   "theorems": [
    "C10_refuted",
    "C10_accepted_are_valid_partial",
    "C10_plain_are_accepted_partial",
    "C10_exactly",
    "C10_setStr_partial",
    "C10_setStrFast_partial",
    "C10_setKey_partial",
    "C10_setKeyFast_partial"
   ],
   "note": "REFUTED as stated (C10_refuted): the setters refuse escapes \\uE000..\\uFFFF, which Parse accepts. C10_exactly: the setters accept exactly the valid bodies containing no such escape at an escape position. Proved part: exact characterisation of the accepted texts (strbody_set), every accepted text is a valid body, every valid body without such an escape is accepted."
  },
  {
   "property": "C11",
   "status": "proved",
   "theorems": [
    "C11_setNumStr",
    "C11_setNumStrFast",
    "C11_setNumStr_getNumStr"
   ],
   "note": "Number setters accept exactly the JSON numbers and store exactly that text."
  },
  {
   "property": "C12",
   "status": "partial",
   "theorems": [
    "C12_refuted",
    "C12_setNumStrLen",
    "C12_setNumStrLenFast",
    "C12_setStrLen_partial",
    "C12_setStrLenFast_partial",
    "C12_setKeyLen_partial",
    "C12_setKeyLenFast_partial"
   ],
   "note": "Number setters proved as stated; string and key setters REFUTED as stated for the same reason as C10 and proved for the exact set of accepted texts; the results do not depend on the history of the shared scratch string."
  },
  {
   "property": "C13",
   "status": "proved",
   "theorems": [
    "C13_setStrEscape_back",
    "C13_setStrLenEscape_back",
    "C13_setKeyEscape_back",
    "C13_setKeyLenEscape_back"
   ],
   "note": "Unescaping what the escaping setters stored gives the original text back."
  },
  {
   "property": "C14",
   "status": "proved",
   "theorems": [
    "C14_setStrEscape",
    "C14_setStrLenEscape",
    "C14_setKeyEscape",
    "C14_setKeyLenEscape",
    "C14_escaped_valid"
   ],
   "note": "The escaping setters never refuse a text (a key only where keys are allowed at all, C33) and store a valid body."
  },
  {
   "property": "C15",
   "status": "proved",
   "theorems": [
    "C15_getUnEscapeStr_decodes",
    "C15_getUnEscapeKey_decodes",
    "C15_getUnEscapeStr_other"
   ],
   "note": "GetUnEscapeStr/Key return the decoded text, on every valid body."
  },
  {
   "property": "C16",
   "status": "proved",
   "theorems": [
    "C16_objGet_first",
    "C16_objGetLen_first",
    "C16_objGet_other"
   ],
   "note": "ObjGet/ObjGetLen return the first member whose raw key bytes are equal, and nothing else."
  },
  {
   "property": "C17",
   "status": "proved",
   "theorems": [
    "C17_sizeOf",
    "C17_arrayGet",
    "C17_arrayGet_other"
   ],
   "note": "SizeOf and ArrayGet agree with the list of children."
  },
  {
   "property": "C18",
   "status": "proved",
   "theorems": [
    "C18_children"
   ],
   "note": "Begin and Next enumerate the children in order, exactly once."
  },
  {
   "property": "C19",
   "status": "proved",
   "theorems": [
    "C19_copy",
    "C19_copy_empty",
    "C19_copy_not_reached",
    "C19_original_not_reached",
    "C19_copy_not_reached_by_setters",
    "C19_original_not_reached_by_setters",
    "C19_programs_again"
   ],
   "note": "The copy denotes the same tree and has the same key, is detached, and shares no node with anything; no later editing call on one of them reaches the other one. Every value of every covered program can be copied, and the copy prints the same (C19_programs_again)."
  },
  {
   "property": "C20",
   "status": "partial",
   "theorems": [
    "C20_refuted",
    "C20_move_partial",
    "C20_move_root",
    "C20_move_empty",
    "C20_exactly",
    "C20_then_next"
   ],
   "note": "REFUTED as stated (C20_refuted): Move damages the links of the former parent, so later edits of the parent crash or lose children. Proved part: as long as the links of the value are in order (always so right after Parse), Move takes out exactly this child and everything else stays. That condition is exact (C20_exactly), and the call itself destroys it for the next sibling of every child but the first (C20_then_next)."
  },
  {
   "property": "C21",
   "status": "partial",
   "theorems": [
    "C21_refuted",
    "C21_arrayAdd_partial",
    "C21_objAdd_partial",
    "C21_arrayAdd_other",
    "C21_objAdd_other",
    "C21_objAdd_without_key",
    "C21_arrayAdd_empty",
    "C21_arrayAdd_exactly",
    "C21_objAdd_exactly"
   ],
   "note": "REFUTED as stated (C21_refuted): after an earlier Move of the last child or an earlier Set, adding crashes or damages another document. Proved part: as long as the container's link to its last child is in order, a copy is appended and everything else stays; all other cases return without effect. That condition is exact (C21_arrayAdd_exactly, C21_objAdd_exactly)."
  },
  {
   "property": "C22",
   "status": "partial",
   "theorems": [
    "C22_refuted",
    "C22_arrayAddFast_partial",
    "C22_objAddFast_partial",
    "C22_arrayAddFast_exactly",
    "C22_objAddFast_exactly"
   ],
   "note": "REFUTED as stated (C22_refuted): moving a value into itself or one of its own parts makes a cycle or loses it; moving the last child of its own container crashes. Proved part: for every value that does not contain the container, with links in order. The exact condition is proved (C22_arrayAddFast_exactly, C22_objAddFast_exactly)."
  },
  {
   "property": "C23",
   "status": "partial",
   "theorems": [
    "C23_refuted",
    "C23_set_partial",
    "C23_set_new",
    "C23_set_empty",
    "C23_then_arrayAdd_exactly",
    "C23_then_objAdd_exactly"
   ],
   "note": "REFUTED as stated (C23_refuted): Set takes over the source's link to its last child, so a later append to the target damages the source. Proved part: the content and the independence of everything else right after the call. Afterwards one can append to the target if and only if it is empty (C23_then_arrayAdd_exactly, C23_then_objAdd_exactly)."
  },
  {
   "property": "C24",
   "status": "partial",
   "theorems": [
    "C24_refuted",
    "C24_setFast_partial",
    "C24_setFast_new_partial",
    "C24_setFast_empty",
    "C24_exactly"
   ],
   "note": "REFUTED as stated (C24_refuted): SetFast with an ancestor makes a cycle, and other value objects of the moved node remain. Proved part: for every value that does not contain the target. That condition is exact (C24_exactly)."
  },
  {
   "property": "C25",
   "status": "partial",
   "theorems": [
    "C25_refuted",
    "C25_arrayDel_partial",
    "C25_objDel_partial",
    "C25_objDel_absent",
    "C25_del_other",
    "C25_arrayDel_exactly",
    "C25_objDel_exactly",
    "C25_arrayDel_twice",
    "C25_arrayDel_then_add"
   ],
   "note": "REFUTED as stated (C25_refuted): deleting twice loses further children. Proved part: with the links of the child in order exactly this child is removed; absent keys and other types: no effect. That condition is exact (C25_arrayDel_exactly, C25_objDel_exactly); deleting twice at a place other than the first always goes wrong (C25_arrayDel_twice), and so does appending after the last of several was deleted (C25_arrayDel_then_add)."
  },
  {
   "property": "C26",
   "status": "proved",
   "theorems": [
    "C26_setNull",
    "C26_setBool",
    "C26_setArray",
    "C26_setObj",
    "C26_setStr",
    "C26_setStrFast",
    "C26_setNumStr",
    "C26_setNumStrFast",
    "C26_setStrLen",
    "C26_setStrLenFast",
    "C26_setNumStrLen",
    "C26_setNumStrLenFast",
    "C26_setInt",
    "C26_setLong",
    "C26_setLongLong"
   ],
   "note": "assigned (Vocab.v) says what changes and that everything else stays; SetOnly.v: every setter, the ones that take texts, lengths and integers too, leaves all other values as they were."
  },
  {
   "property": "C27",
   "status": "partial",
   "theorems": [
    "C27_refuted",
    "C27_requests_partial",
    "C27_exactly",
    "C27_two_gib",
    "C27_endless",
    "C27_outside"
   ],
   "note": "REFUTED as stated (C27_refuted): sizes are 32-bit; a request above 2^31 bytes never returns and wrap-around hands out memory twice. Beyond that everything is decided: C27_exactly says from the sizes alone which sequences of requests to a new allocator are served with disjoint regions inside live blocks, all others hang or leave their block; all sequences of up to 2 GiB in total are served (C27_two_gib), and no larger bound would do. C27_requests_partial: the same from any state, up to 2^30 bytes."
  },
  {
   "property": "C28",
   "status": "proved",
   "theorems": [
    "C28_release",
    "C28_release_anytime"
   ],
   "note": "For any sequence of requests, without bound on the sizes; and at any point of any program."
  },
  {
   "property": "C29",
   "status": "partial",
   "theorems": [
    "C29_refuted",
    "C29_release_partial",
    "C29_new_allocator_partial",
    "C29_programs_partial",
    "C29_alone_partial",
    "C29_contract_partial"
   ],
   "note": "REFUTED as stated (C29_refuted): the shared scratch string is used after the release of the allocator it lives in; adding a value of another allocator stores the copy there. Proved: documents independent of an allocator survive its release; a new allocator is independent of everything; whole programs over any number of groups of allocators with releases at any time answer what a reference without shared state answers, and a group that is not released gets the answers it would get alone (C29_programs_partial, C29_alone_partial); C29_contract_partial replaces definedness of the reference by a declarative contract for every call. Missing: length setters after the release of the group holding the scratch string (false), and releasing one of two allocators whose values were combined (false)."
  },
  {
   "property": "C30",
   "status": "proved",
   "theorems": [
    "C30_setInt",
    "C30_setLong",
    "C30_setLongLong",
    "C30_decimal_is_number"
   ],
   "note": "The number getters return exactly the integer set, for all ints/longs."
  },
  {
   "property": "C31",
   "status": "partial",
   "theorems": [
    "C31_refuted",
    "C31_overread_refuted",
    "C31_overflow_refuted",
    "C31_getInt_exact_partial",
    "C31_getLong_exact_partial",
    "C31_getInt_exactly",
    "C31_getLong_exactly",
    "C31_getLong_right_exactly",
    "C31_getDouble_exact_partial",
    "C31_one_double",
    "C31_every_number_has_a_value",
    "C31_getDouble_refuted",
    "C31_getDouble_exactly",
    "C31_getDouble_otherwise",
    "C31_getDouble_right",
    "C31_parsed_getLong",
    "C31_parsed_getDouble",
    "C31_parsedLen_getLong",
    "C31_parsedLen_getDouble",
    "C31_parsedFast_getLong",
    "C31_parsedFast_getDouble"
   ],
   "note": "REFUTED as stated (three ways): the long/double getters read past the end of the number's text; the int getter overflows its 128-byte copy. Proved part: GetInt with at most 127 bytes, GetLong when the byte after the text is readable and cannot continue the number. GetDouble likewise: the double nearest to the decimal value, of two equally near ones the even one (only one double is that, C31_one_double). For documents as Parse, ParseLen or ParseFast leave them no condition on the following byte is needed (C31_parsed_*): every number at every position is read exactly. C35_program_partial carries this to whole programs: numbers from parsed texts, from the integer and double setters and from zj_SetNumStrFast stay exactly readable wherever they are moved. The integer getters are decided exactly: GetInt answers z iff z is the integer part, an int, and the text has at most 128 bytes (C31_getInt_exactly); GetLong and GetLongLong answer the integer that memory from the number on begins with, and are right iff the number has a fraction or exponent, or is followed by a readable non-digit, or is 0 followed by zeros and a non-digit (C31_getLong_right_exactly). GetDouble is decided exactly too: it answers d iff the number has at most 128 bytes, the reader meets a byte that ends what it reads, and d is the double nearest to the longest number of C, decimal or hexadecimal, that memory begins with there (C31_getDouble_exactly, C31_getDouble_right); otherwise the behaviour is undefined (C31_getDouble_otherwise)."
  },
  {
   "property": "C32",
   "status": "proved",
   "theorems": [
    "C32_type",
    "C32_isNull",
    "C32_getBool",
    "C32_getStr",
    "C32_getStrFast",
    "C32_getNumStr",
    "C32_getNumFast",
    "C32_getKey",
    "C32_getKeyFast",
    "C32_empty"
   ],
   "note": "Every typed getter answers by the type and gives the stored text/boolean; on an empty value all of them answer null."
  },
  {
   "property": "C33",
   "status": "proved",
   "theorems": [
    "C33_setKey",
    "C33_setKeyFast",
    "C33_setKeyLen",
    "C33_setKeyLenFast",
    "C33_array_element",
    "C33_object_member"
   ],
   "note": "Keys can be set exactly on values that are not array elements."
  },
  {
   "property": "C34",
   "status": "partial",
   "theorems": [
    "C34_refuted",
    "C34_requests_partial",
    "C34_exactly"
   ],
   "note": "REFUTED (C34_refuted): a value made after a text of odd length is misaligned. Decided exactly: an address is aligned iff what was handed out of its chunk before is a multiple of 8 (C34_exactly); in particular all are while all request sizes are multiples of 8 (C34_requests_partial)."
  },
  {
   "property": "C35",
   "status": "partial",
   "theorems": [
    "C35_program_partial",
    "C35_judge",
    "C35_contract_partial",
    "C35_refuted_moves",
    "C35_refuted_set",
    "C35_refuted_add",
    "C35_refuted_numbers"
   ],
   "note": "Proved: for every finite program over 37 kinds of calls (parsers, setters, all getters, printing, navigation, copying, linking, removing) for which the reference semantics of Hist.v is defined, the model runs without undefined behaviour, answers the same and keeps representing the reference forest. C35_contract_partial replaces definedness of the reference by a declarative contract for every call, which is sufficient. Partial because the reference promises nothing where zj_Move/zj_Set left damaged links, for the long and double getters on numbers that zj_SetNumStr, zj_SetNumStrLen or a copy wrote (the four refutations are programs of these kinds, found against a reference without the damage), for numbers beyond 128 bytes or the getter's type, beyond 2^30 bytes per allocator, and for cyclic or overlapping Fast arguments; releases are in C29_programs_partial."
  },
  {
   "property": "C36",
   "status": "proved",
   "theorems": [
    "C36_parse_child"
   ],
   "note": "Parse into a child replaces exactly that subtree."
  },
  {
   "property": "C37",
   "status": "proved",
   "theorems": [
    "C37_spacing",
    "C37_spacing_all"
   ],
   "note": "White space between tokens does not influence what is read or printed."
  },
  {
   "property": "C38",
   "status": "proved",
   "theorems": [
    "C38_build"
   ],
   "note": "For every sequence of appends of any sizes and every start size the builder holds exactly the concatenation."
  },
  {
   "property": "C39",
   "status": "partial",
   "theorems": [
    "C39_refuted",
    "C39_infinite_refuted",
    "C39_setDouble_partial",
    "C39_setNum_partial",
    "C39_setDouble_safe",
    "C39_exactly"
   ],
   "note": "REFUTED for infinities and NaN: the call answers true and Stringify prints inf or nan. C39_exactly: the call answers true for every double and the stored text is a JSON number exactly when the double is finite. Proved for every finite double (any IEEE binary64 value); for all doubles the 32-byte buffer is never overrun. printf %.17g is modelled after the C standard (correctly rounded)."
  },
  {
   "property": "C40",
   "status": "proved",
   "theorems": [
    "C40_nesting",
    "C40_every_depth",
    "C40_deep_trees",
    "C40_copy"
   ],
   "note": "For every well-formed tree of any depth Parse of its text, Stringify and Copy of the value succeed (within the arena); C40_deep_trees: such trees exist in every depth."
  },
  {
   "property": "C41",
   "status": "proved",
   "theorems": [
    "C41_setDouble_getDouble",
    "C41_setNum_getNum"
   ],
   "note": "Every finite double, sign of zero included. printf %.17g and atof are modelled after the C standard, both correctly rounded, in the C locale."
  },
  {
   "property": "C42",
   "status": "proved",
   "theorems": [
    "C42_requests",
    "C42_shipped",
    "C42_limit",
    "C42_useless_settings"
   ],
   "note": "Every configuration; the growth is shown exact for powers of two, and the useless settings are characterised. C42_shipped: the arena of the other theorems is the instance with the defaults."
  },
  {
   "property": "C43",
   "status": "proved",
   "theorems": [
    "C43_obtained"
   ],
   "note": "Every configuration with a growth factor of at least 2."
  },
  {
   "property": "C44",
   "status": "proved",
   "theorems": [
    "C44_appends",
    "C44_shipped",
    "C44_unsafe_settings"
   ],
   "note": "Sizes and positions of the builder in every configuration (contents: C38, for the defaults). C44_shipped: an append of the main model is the instance with the defaults."
  },
  {
   "property": "C45",
   "status": "proved",
   "theorems": [
    "C45_construct",
    "C45_destroy",
    "C45_requests",
    "C45_isolated"
   ],
   "note": "Constructor and destructor of the C++ interface (zzzjson.h:454-473); the object itself is the caller's memory. The methods of Value forward one-to-one and are not modelled."
  },
  {
   "property": "C46",
   "status": "proved",
   "theorems": [
    "C46_accounted",
    "C46_released",
    "C46_buffers",
    "C46_nothing"
   ],
   "note": "Holds for every run of the model that returns, also outside the reference semantics; C46_released combines it with the reference semantics, which says that the run returns. Blocks are those of malloc; the caller's temporary arguments are freed by the caller after the call."
  },
  {
   "property": "C47",
   "status": "proved",
   "theorems": [
    "C47_count",
    "C47_detects",
    "C47_equal",
    "C47_released"
   ],
   "note": "The counters are a field of the model state that no function reads, so that the same runs describe mode 1 and mode 2. C47_released combines C47_equal with the reference semantics, which says that the run returns."
  },
  {
   "property": "C48",
   "status": "proved",
   "theorems": [
    "C48_program",
    "C48_same",
    "C48_same_calls",
    "C48_scope",
    "C48_freed",
    "C48_buffers"
   ],
   "note": "Programs are those of the reference semantics (C35) with 8 more bytes per wrapper object; C48_freed and C48_buffers hold for every program whose scope ends. The member val of the wrapper objects is kept in a map outside the byte memory. Finding: the method SetNumStrLenFast calls SetNumStrLen, so it copies the text."
  },
  {
   "property": "C49",
   "status": "proved",
   "theorems": [
    "C49_call",
    "C49_program",
    "C49_anywhere",
    "C49_scratch"
   ],
   "note": "Proved for every call of the interface in every memory, without any invariant (a frame rule for the whole model), for programs with releases, and for programs of the reference semantics started in an arbitrary memory. C49_scratch shows that the exception for the length setters is real."
  },
  {
   "property": "C50",
   "status": "proved",
   "theorems": [
    "C50_blocks",
    "C50_program",
    "C50_document"
   ],
   "note": "Proved: the number of blocks for every run of the model, in the contract or not; the size for every program of the reference semantics; a closed linear bound for parsing and printing one text. The factor 308 comes from the bound of 72 bytes per byte of text for nodes and is not claimed to be the best."
  },
  {
   "property": "C51",
   "status": "proved",
   "theorems": [
    "C51_program",
    "C51_groups",
    "C51_values",
    "C51_memory",
    "C51_document"
   ],
   "note": "Proved. Rounds are counted per loop, not per machine step; a round of the printing loop also copies the bytes of one key or value. The parser's loop has its own bound in the model (2 per byte, plus 2), which the parse theorems show is never reached."
  },
  {
   "property": "C52",
   "status": "proved",
   "theorems": [
    "C52_client",
    "C52_documents"
   ],
   "note": "Proved. Pointers may be handed on from getters to the Fast setters of the same kind (text to text, key to key), as the samples do."
  },
  {
   "property": "C53",
   "status": "partial",
   "theorems": [
    "C53_main",
    "C53_refuses",
    "C53_anywhere",
    "C53_cost",
    "C53_escape_refuted",
    "C53_exactly",
    "C53_anywhere_exactly"
   ],
   "note": "REFUTED as stated: a string or key with an escape of U+E000 to U+FFFF (which Parse accepts and the setters refuse, C10) is not copied (C53_escape_refuted). Decided exactly for every document (C53_exactly, C53_anywhere_exactly): an array ends before such a string, in an object null stands for it, an object ends before such a key; every other document is copied as it is (C53_main, C53_anywhere), refusal and linear cost included. The C++ sample is modelled on the C functions its wrapper methods forward to."
  },
  {
   "property": "C54",
   "status": "proved",
   "theorems": [
    "C54_parseFast",
    "C54_parse"
   ],
   "note": "Proved: accepted iff JSON, document of the text, all other documents kept, caches cleared. As in zzzjson.h the call may read up to three bytes past the terminator of an unfinished literal (C03); the theorem answers for all other cases."
  },
  {
   "property": "C55",
   "status": "partial",
   "theorems": [
    "C55_refuted",
    "C55_shorter_refuted",
    "C55_parseLen_partial"
   ],
   "note": "REFUTED as stated: bytes after the given length decide (C55_refuted) and are kept (C55_shorter_refuted), because the copy is made and then the caller's buffer is parsed. Proved part: with the length of the text up to its terminator the call is the plain parse (C55_parseLen_partial)."
  },
  {
   "property": "C56",
   "status": "partial",
   "theorems": [
    "C56_refuted",
    "C56_setStr_partial",
    "C56_setNumStr_partial",
    "C56_setKey_partial"
   ],
   "note": "REFUTED for parse and parse with length: the document points into the caller's buffer (C56_refuted). Proved for the copying setters of strings, numbers and keys."
  },
  {
   "property": "C57",
   "status": "partial",
   "theorems": [
    "C57_refuted",
    "C57_program_partial",
    "C57_text_partial",
    "C57_key_partial",
    "C57_unEscapeKey_partial"
   ],
   "note": "REFUTED as stated: a change through a second value object of the same node is not seen by the first (C57_refuted). Proved for every program in which no two value objects stand for one node (C57_program_partial: the run equals one on a reference without memory), and per call exactly what is answered."
  },
  {
   "property": "C58",
   "status": "partial",
   "theorems": [
    "C58_refuted",
    "C58_unEscape_partial",
    "C58_num_partial"
   ],
   "note": "REFUTED both ways (C58_refuted). Proved: exactly what is answered in every state, and by C57_program_partial no confusion while each node has one value object."
  },
  {
   "property": "C59",
   "status": "partial",
   "theorems": [
    "C59_refuted",
    "C59_set_partial",
    "C59_setFast_partial"
   ],
   "note": "REFUTED: the member takes over the key of the source if both have one (C59_refuted). Proved: the exact effect of both calls on value and keys."
  },
  {
   "property": "C60",
   "status": "proved",
   "theorems": [
    "C60_finite",
    "C60_infinite"
   ],
   "note": "Proved for every double; sprintf \"%.17g\" and atof as specified in Double.v."
  },
  {
   "property": "C61",
   "status": "proved",
   "theorems": [
    "C61_program",
    "C61_contract"
   ],
   "note": "Proved for every program the reference answers; the loops get an explicit bound on their rounds. C61_contract replaces definedness of the reference by a declarative contract for every call."
  },
  {
   "property": "C62",
   "status": "proved",
   "theorems": [
    "C62_documents",
    "C62_stringify",
    "C62_groups"
   ],
   "note": "Proved for every program the reference answers (C61); with several groups and releases in C62_groups."
  },
  {
   "property": "C63",
   "status": "proved",
   "theorems": [
    "C63_both"
   ],
   "note": "Proved; that the three conditions are needed is C55, C57 and C59. The documents are the same forest; only the bytes used differ."
  },
  {
   "property": "C64",
   "status": "proved",
   "theorems": [
    "C64_programs",
    "C64_alone",
    "C64_scratch",
    "C64_contract"
   ],
   "note": "The reference has per group a forest of documents and the answers remembered by its value objects; the scratch string of the length setters is the only shared thing it knows (as in C29). C64_scratch shows that the exception in the statement is real. C64_contract states the contract call by call."
  },
  {
   "property": "C65",
   "status": "proved",
   "theorems": [
    "C65_accounted",
    "C65_buffers",
    "C65_released",
    "C65_nothing",
    "C65_count",
    "C65_detects"
   ],
   "note": "Accounting and counting hold for every run of the model that returns, also outside the reference semantics; C65_released combines them with the reference, which says that the run returns."
  },
  {
   "property": "C66",
   "status": "proved",
   "theorems": [
    "C66_call",
    "C66_program",
    "C66_anywhere"
   ],
   "note": "Frame rule for every call of the beta header and for programs with releases, from any memory, including the cache words; the value objects of the program and what they remember must lie outside the blocks that are taken away."
  },
  {
   "property": "C67",
   "status": "proved",
   "theorems": [
    "C67_blocks",
    "C67_program",
    "C67_document"
   ],
   "note": "Blocks of any run; bytes and blocks of every program within the contract, with releases; parse-and-print of any JSON text."
  },
  {
   "property": "C68",
   "status": "proved",
   "theorems": [
    "C68_program",
    "C68_values",
    "C68_memory"
   ],
   "note": "Fuel bounds for programs with one group; with several groups and releases see the bound zwmost in C67_program."
  },
  {
   "property": "C69",
   "status": "proved",
   "theorems": [
    "C69_client",
    "C69_kept",
    "C69_printed",
    "C69_contract"
   ],
   "note": "Proved for every client program within the contract, deciding by the answers so far. A pointer with a length is not handed to z_ValueParseLen, which reads on behind the length (C55). Programs with one group and no release. C69_contract states the contract statement by statement."
  },
  {
   "property": "C70",
   "status": "proved",
   "theorems": [
    "C70_client",
    "C70_kept"
   ],
   "note": "Proved for every client program within the contract, deciding by the answers so far: pointers are handed to the code as they are, without copies, and the run gives the answers of a reference in which a pointer is its text. Releasing allocators: C71."
  },
  {
   "property": "C71",
   "status": "proved",
   "theorems": [
    "C71_client",
    "C71_kept",
    "C71_contract"
   ],
   "note": "Proved for every client program within the contract, with any number of groups and releases: the contract is also stated call by call (C71_contract); pointers are handed to the code as they are. Storing a text of one group in another one without a copy is outside the contract (C71_careless shows what happens then)."
  },
  {
   "property": "C72",
   "status": "partial",
   "theorems": [
    "C72_refuted",
    "C72_client_partial",
    "C72_kept",
    "C72_contract_partial"
   ],
   "note": "Refuted for z_ValueParse, which makes a copy but parses the text of the caller: parsing a text of another group succeeds and printing reads freed memory once that group is released (C72_refuted). Everything else is proved for every client program within the contract, with any number of groups and releases (C72_client_partial, C72_kept; call by call C72_contract_partial); missing is only the parsing of texts of other groups, where the claim is false."
  },
  {
   "property": "C73",
   "status": "proved",
   "theorems": [
    "C73_client",
    "C73_scope",
    "C73_freed",
    "C73_kept",
    "C73_contract",
    "C73_same",
    "C73_ported"
   ],
   "note": "Proved for every client program within the contract; the contract is also stated call by call (C73_contract). C73_freed holds for every program whose scope ends. Buffers the caller passes to ParseFast stay with the caller, as in C48."
  },
  {
   "property": "C74",
   "status": "proved",
   "theorems": [
    "C74_client",
    "C74_same",
    "C74_contract",
    "C74_no_leak",
    "C74_all_freed"
   ],
   "note": "Proved for every client program within the contract of C71 (the program in C, as_g, is the specification), and call by call (C74_contract). C74_no_leak and C74_all_freed hold for every program that has not crashed. The methods of zj_Value are the functions they call (C76)."
  },
  {
   "property": "C75",
   "status": "proved",
   "theorems": [
    "C75_client",
    "C75_contract",
    "C75_same",
    "C75_ported",
    "C75_apart",
    "C75_kept",
    "C75_no_leak",
    "C75_all_freed"
   ],
   "note": "Proved for every client program within the reference semantics of HppWorld.v (C75_client), and call by call from the contract (C75_contract). The program in C of C75_same is built along the run of the reference (y_in_c), because NewValue() takes the allocator of the object and SetNumStrLenFast is zj_SetNumStrLen. C75_no_leak and C75_all_freed hold for every program that has not crashed."
  },
  {
   "property": "C76",
   "status": "proved",
   "theorems": [
    "C76_functions",
    "C76_call",
    "C76_program",
    "C76_client",
    "C76_contract",
    "C76_allocator",
    "C76_beside",
    "C76_own",
    "C76_own_same",
    "C76_own_contract",
    "C76_objects",
    "C76_objects_client",
    "C76_all_freed"
   ],
   "note": "Proved from every state for all calls and programs (C76_functions, C76_call, C76_program): each forwarder is written in Names.v as it stands in the header, so the proof is a comparison of the 126 bodies with the functions; C76_client and C76_contract add what C71 says of the functions, C76_objects_client and C76_all_freed what C74 says of allocator objects."
  },
  {
   "property": "C77",
   "status": "proved",
   "theorems": [
    "C77_functions",
    "C77_call",
    "C77_program",
    "C77_client",
    "C77_contract"
   ],
   "note": "Proved from every state for all calls and programs: each of the 52 short names is written in BetaNames.v as it stands in the header. C77_client carries over what the reference of C72 says of the functions."
  },
  {
   "property": "C78",
   "status": "proved",
   "theorems": [
    "C78_no_leak",
    "C78_all_freed",
    "C78_names"
   ],
   "note": "Proved for every program that has not crashed. The buffers of the caller are listed along the run (zgbuffers); C78_names carries the claim over to programs that mix the short names and the functions."
  }
 ]
}