{
 "C03": [
  "proved",
  "C03_sort_inconsistent_comparator_refuted shows the comparator hypothesis is necessary."
 ],
 "C12": [
  "partial",
  "proved for an even number (or one) of accepted entries of a non-empty tree; for odd counts >= 3 the last entry is lost and an empty tree is undefined behaviour, see the _refuted theorems"
 ],
 "C18": [
  "partial",
  "proved for all schedules of calls that add at most one item (Push, PushLeft/Right, ClearAndPush, PushN of <= 1) and take at least one; WaitEmpty is proved without restriction. PushN of two or more signals once only and a PopN(0) consumer swallows a wake-up: see the _refuted theorem and swallow_shape"
 ],
 "C20": [
  "partial",
  "Proved for every history in which a mutable iterator is taken on a list that shares nothing (all other operations unrestricted): same answers as independent lists, and nothing leaked. A mutable iterator on a list that shares nodes changes or frees the copy's nodes, see the C20_*_refuted theorems; also refuted: lists without compare function, NULL payloads, light iterators across a detach."
 ],
 "C21": [
  "proved",
  "Full for every legal history; the excluded calls are shown to break it (C21_zero_capacity_refuted, C21_mode_switch_unterminated_refuted, C21_append_nul_depends_on_room_refuted, C21_copy_loses_bytes_refuted). BufferSearchAndReplace (pcre) is not modelled."
 ],
 "C22": [
  "partial",
  "Proved for two C strings (unsigned order) and for byte arrays and mixed pairs (signed order), each a total order; the full claim over a mix of modes is false of the code: C22_mixed_modes_refuted exhibits a cycle."
 ],
 "C23": [
  "proved",
  "for single strings up to INT_MAX bytes and non-NUL characters; outside that C23_long_string_refuted and C23_nul_char_refuted show the deviation"
 ],
 "C24": [
  "proved",
  "Any non-empty list of C strings survives CsvWriter + SeqParseCsvString (line shorter than the parser's buffer bound, predicate fits). Without line termination one shape is excluded and C24_unterminated_refuted shows why."
 ],
 "C25": [
  "proved",
  "Records written one after another are read back one by one by GetCsvLineNext and each parses to its fields."
 ],
 "C26": [
  "partial",
  "No undefined behaviour, exact acceptance and rejection are proved for text without a single blank after closing quotes, without an empty field right after a quoted last one, and not going wrong only at the last character; the _refuted theorems show the code deviates on each of those."
 ],
 "C27": [
  "partial",
  "Content and comments are proved safe and reversible through an independent XML reader (C27_document); attribute values and two dashes in a comment are not escaped, shown by C27_attribute_refuted and C27_comment_refuted."
 ],
 "C28": [
  "partial",
  "Round trips through memory and through files proved for all strings below 10^9 bytes; deserialization from memory proved safe and exact for the format the code accepts; damaged prefixes can be accepted and damaged files are undefined behaviour, see the _refuted theorems."
 ],
 "C31": [
  "partial",
  "proved for every text whose byte after the numeral is ASCII; for a byte 128..254 there isspace() gets a negative plain char, which C leaves undefined, see C31_high_byte_refuted"
 ],
 "C32": [
  "partial",
  "proved exactly for the strings with no backslash directly before the character to escape; C32_EscapeCharCopy_fails proves that all other strings overflow or come out unterminated"
 ],
 "C33": [
  "partial",
  "exact slice for the documented argument combinations when it has at least two characters; single-character slices are NULL, and C33_refuted lists the other deviations (reach-back lengths, negative start with positive length, out-of-bounds reads)"
 ],
 "C38": [
  "partial",
  "proved for every v in [1, 2^32], the range the library uses it on; above 2^32 (no 32-bit smear step) and at 0 the claim is false of the code, see the _refuted theorems"
 ],
 "C39": [
  "partial",
  "proved exactly where the intermediate sum fits in long (all divisors up to 2^62, all non-positive dividends); outside that the code overflows, see the _refuted theorem"
 ],
 "C42": [
  "partial",
  "The property fails (C42_refuted): texts that break off with one stray character are accepted. C42_accepted_partial characterises exactly what is accepted and stored for every string."
 ],
 "C44": [
  "partial",
  "Full forms and printing exact for all inputs. Compressed text exact in the shapes listed by `manageable`; other shapes and bracketed compressed text with several groups after :: are stored wrongly or rejected (C44_bracketed_refuted, C44_refuted). Parsing is free of undefined behaviour on every string."
 ],
 "C45": [
  "proved",
  "Round trip for every NUL-free string; between quotes the encoded text is a JSON string; no raw \\b \\t \\n \\f \\r. Other control characters (0x01..) are written raw (C45_control_refuted), beyond the property's newline/tab."
 ],
 "C46": [
  "partial",
  "False as stated: string values are unescaped twice (exact set of surviving strings: C46_string_iff), member names are not escaped, reals longer than 31 characters are cut. Proved for all portable trees (these three excluded), for both writers, plus: every text of the RFC grammar (without \\u escapes) is parsed to the tree it denotes."
 ],
 "C47": [
  "proved",
  "Histories of append/remove/detach/get/length/reverse; order of members; arrays; JsonMerge on copyable trees. JsonObjectMergeDeepInplace does not exist at this commit."
 ],
 "C48": [
  "proved",
  "Same text for trees equal up to member order (distinct names), names ascend in the text, and the model's sort is what the SeqSort model computes."
 ],
 "C49": [
  "partial",
  "False as stated: JsonCopy truncates 64-bit integers to int and exits on 1e5; JsonCompare compares each child of the first container with itself, so it ignores contents (exact characterisation proved). JsonCopy is proved to return an equal tree for all trees whose numbers print back; independence of the copy is not visible in a functional model."
 ],
 "C50": [
  "partial",
  "Proved for every input that does not end in a backslash; a string literal ending in a backslash at the end of the input makes the parser step over the terminator (C50_refuted). Recursion depth (stack) is not modelled."
 ],
 "C52": [
  "proved",
  "Includes termination whenever the kernel makes progress; a kernel that keeps returning 0 from write(2) makes FullWrite spin (C52_zero_writes_refuted)."
 ],
 "C56": [
  "partial",
  "each key and value exactly once is proved; 'nothing else' is false: every RBTreeClear also passes NULL to both callbacks, see the _refuted theorem"
 ],
 "C60": [
  "partial",
  "lower-casing is proved for all strings; upper-casing for printable text without blanks, see C60_ToUpper_refuted"
 ],
 "C62": [
  "partial",
  "Proved for files without NUL bytes; with NUL bytes the result depends on the chunking (C62_nul_refuted)."
 ],
 "C63": [
  "proved",
  "For a new destination file and a non-zero block size; the other cases are refuted."
 ],
 "C64": [
  "partial",
  "SeqStringFromString drops a trailing empty piece, SeqStringLength overflows past INT_MAX; everything else exact."
 ],
 "C66": [
  "partial",
  "Digits are read exactly; the port of an IPv6 address without one is never written (C66_port_refuted) and signs are accepted in place of digits (C66_refuted)."
 ],
 "C67": [
  "proved",
  "For all trees, visitors and states."
 ],
 "C68": [
  "partial",
  "Proved for all paths whose indices are not empty and fit a long; otherwise an array index ends the process (C68_empty_index_refuted)."
 ],
 "C69": [
  "partial",
  "Printable and injective for all data; denotes the data in JSON5 unless a NUL byte directly precedes a digit (\\0 followed by a digit is not JSON5: C69_nul_digit_refuted)."
 ],
 "C51": [
  "partial",
  "Exact rendering is proved for all well-formed templates over the default delimiters (text, five kinds of variables, comments, sections nested to any depth, standalone lines) and all sorted data, against a separate AST semantics with the implementation's scope quirks; against the ideal semantics only for templates whose nested sections do not iterate (refuted otherwise by a counterexample). Templates that change delimiters are modelled but not in the exact theorem."
 ],
 "C70": [
  "partial",
  "Proved for all inputs except that memmem, strstr and strcasestr return NULL for an empty needle in an empty haystack (refuted), and strcasestr calls tolower() with negative values for bytes above 127 (refuted)."
 ],
 "C71": [
  "partial",
  "strrstr overlooks an occurrence at offset 0 (C71_strrstr_refuted); everything else is proved."
 ],
 "C72": [
  "partial",
  "stpncpy counts with an int: proved for lengths up to INT_MAX.  The other functions are proved without restriction."
 ],
 "C73": [
  "partial",
  "For 7-bit strings; other bytes are passed to tolower() as negative ints (C73_strcasecmp_refuted)."
 ],
 "C76": [
  "partial",
  "Holds for every line except those whose right-hand side ends in a lone backslash, where the code skips the terminator and runs on (C76_dangling_refuted)."
 ],
 "C77": [
  "partial",
  "Holds for every file whose lines within the limit have no dangling backslash (C77_dangling_refuted otherwise), for every size limit and read error; allocation failure is excluded (getline would stop early and the file be reported as unreadable)."
 ],
 "C80": [
  "partial",
  "Holds for all files whose lines are shorter than 1023 bytes; longer lines are cut by fgets and their value is split (C80_long_line_refuted). sscanf is a parameter."
 ],
 "C81": [
  "partial",
  "PCRE is an oracle answering within the subject. Proved for substitutes with at most 32 references, to groups up to 32, without $` and $', \\0, or non-ASCII bytes right behind $ or a reference, and, with option g, when empty matches are found only at the search offset. Each restriction is necessary: see the C81_*_refuted theorems."
 ],
 "C83": [
  "proved",
  "OpenSSL is an oracle giving digests of the right size. For HashNewFromDescriptor the claim is about reads that do not fail: a failed or interrupted read(2) is passed on as a length, which is undefined behaviour (C83_HashNewFromDescriptor_failed_read_refuted)."
 ],
 "C84": [
  "proved",
  "A read error in HashFile is indistinguishable from the end of the file in the model (fread returns a short count in both cases and the code does not look further)."
 ],
 "C85": [
  "proved",
  "When OpenSSL has no MD5 (FIPS mode) the digest is all zeros and strings become indistinguishable (C85_no_md5_refuted)."
 ],
 "C87": [
  "partial",
  "Proved for the trust rule the code implements (root, and the user whose number is 1 when the process is not root: `bool p_uid = geteuid()`). Refuted for the documented rule: own links are not followed (C87_own_links_refuted), links of user 1 are (C87_foreign_links_refuted), only the first link of a chain of links is checked (C87_chain_of_links_refuted), and a file of root can be switched for a foreign link (C87_switched_link_refuted)."
 ],
 "C88": [
  "proved",
  "Opening / for writing succeeds with a read-only descriptor (C88_root_for_writing_refuted)."
 ],
 "C89": [
  "partial",
  "safe_chown of a symlink uses the link's own name in the target's directory and changes a bystander (C89_chown_of_link_refuted)."
 ],
 "C91": [
  "partial",
  "Missing: locales with a thousands separator or another decimal point, %a (which the code treats as %f). A double or long double is an exact rational number in the model, and the arithmetic in long double is exact: what its 64-bit mantissa rounds is not modelled; C99 leaves the rounding of a half open, the specification rounds it up. Excluded because the code departs from C99 there: precision 0 with value 0 prints 0 (C91_precision_zero_refuted), the width of %c is ignored (C91_char_width_refuted), the smallest 64-bit number is undefined behaviour (C91_smallest_number_refuted), %.Ns reads one character beyond an array of N characters (C91_unterminated_string_refuted), precision INT_MAX with 0x overflows an int, -0 loses its sign (C91_minus_zero_refuted), more than 19 digits after the decimal point are not printed (C91_float_precision_refuted), numbers from 2^64 - 1 on are an error with %f (C91_too_large_for_f, C91_float_large_refuted), exponents of three digits are cut and the digits adapted (C91_float_exponent_refuted)."
 ],
 "C92": [
  "proved",
  "Long double arithmetic is exact in the model. Arguments of the wrong type are undefined behaviour in C; the theorem is about the runs that are defined."
 ],
 "C93": [
  "partial",
  "The formats of C91 (C93_vasprintf_partial); for all other formats: an own, terminated string of the measured size or -1 (C93_any_format). malloc may fail."
 ],
 "C97": [
  "proved",
  "That LogRaw reaches the same places as Log is refuted: a hook forced for the level is not run (C97_forced_hook_refuted)."
 ],
 "C99": [
  "partial",
  "Between processes. Inside one process the claim is refuted (POSIX): a second FileLock for the same file is granted and closing it drops the first (C99_own_process_refuted).  Processes may end (be killed) at any moment; then their locks are gone and nobody else's (C99_end_of_process)."
 ],
 "C100": [
  "partial",
  "Descriptors: except after failed LockPath calls, which leak the opened descriptor (C100_descriptor_leak_refuted)."
 ],
 "C102": [
  "partial",
  "Proved without interference, when the paths of everything below fit into PATH_MAX and the path does not go through the directory's own contents; refuted otherwise: a user owning part of the tree can make it delete others' files (C102_race_refuted), own contents, truncated paths that return true with files left, endless recursion at PATH_MAX-2."
 ],
 "C103": [
  "partial",
  "Proved as stated; refuted: numbers of more than three digits (leading zeros) are accepted, which POSIX excludes (C103_three_digits_refuted); inet_pton refuses all IPv6 text since INET6 is never defined, although inet_ntop writes it (C103_ipv6_refuted)."
 ],
 "C104": [
  "partial",
  "Proved as stated, with the exact set of texts inet_pton6 accepts; refuted that it only accepts addresses (C104_pton6_refuted: final colon, :: for nothing loses groups, long groups). inet_pton6 is compiled only if INET6 is defined."
 ],
 "C105": [
  "proved",
  "Proved as stated for programs that follow the rules of JsonHeapSpec.rule (every call is covered by a rule; ownership is in the rules). That the rules are needed is shown: a key that is the name of the element itself or of the member it replaces is read after it was freed (C105_own_name_refuted, C105_replaced_name_refuted), an element in two containers is freed twice (C105_shared_refuted). JsonArrayExtend(a, a) never ends (SeqAppendSeq onto itself): outside of the rules. Addresses are never reused in the model."
 ],
 "C106": [
  "proved",
  "Proved as stated for containers that do not change during the iteration; refuted otherwise: replacing the current member skips the next one (C106_replace_in_loop_refuted). The type functions of an iterator without current value dereference NULL (C106_position)."
 ],
 "C107": [
  "proved",
  "Proved as stated; refuted: a path that is too long gives NULL at the first call and the text cut off at the next ones (C107_too_long_refuted); a user without a password entry makes GetInputDir print NULL with %s (C107_no_home_refuted)."
 ],
 "C108": [
  "partial",
  "Proved for documents whose numbers the final JsonCopy keeps (integers in the range of int in canonical form, reals as %.4f prints them) (C108_document_partial); for all others the result is proved to be a JsonCopy of the value (C108_copy), which changes integers from 2^31 and stops the program at 1e5 (C108_numbers_refuted). Refuted: an empty text stops the program (C108_empty_refuted); a syntax error is not reported, what was read so far is returned as OK (C108_syntax_error_refuted); aliases are passed over and mispair the keys behind them (C108_alias_refuted); a container as key stops the program (C108_key_refuted)."
 ],
 "C109": [
  "proved",
  "Proved for every scalar that does not begin like a number without being one (C109_all says these are all that is left out); of those, a number followed by a space, comma or bracket is cut to the number: 12 apples is 12 (C109_prefix_refuted). A NUL in a quoted scalar cuts it (C109_nul_refuted)."
 ],
 "C110": [
  "partial",
  "Proved where at most nine groups take part (C110_full_partial for patterns with at most nine groups; never a wrong yes for a non-empty text: C110_full_sound). With ten the offset vector is too small and a match of the whole text is denied (C110_many_groups_refuted). A pattern whose first alternative is shorter is denied too: a|ab for ab (C110_alternative_refuted)."
 ],
 "C111": [
  "proved",
  "Proved for every pattern for which PCRE answers as documented (spans with start <= end); names that are distinct and do not begin with a digit, as PCRE requires, for StringCaptureData."
 ],
 "C112": [
  "proved",
  "Proved for senders that use Put and a receiver with a free descriptor. Refuted: without a free descriptor what was passed is lost (C112_lost_refuted); another peer can make Get fail an assert with two descriptors, or read past its buffer with 1024 bytes without NUL (C112_peer_refuted). On Linux; the Windows and BSD variants are not modelled."
 ],
 "C113": [
  "proved",
  "Path resolution is C88 ff.; here opening is an oracle. Buffered output is taken to reach the file as written. Refuted: a file copied to itself (source and destination the same inode) is emptied, with result true (C113_copy_to_itself_refuted)."
 ],
 "C114": [
  "proved",
  "glob and readdir are oracles. Refuted: without extension ListDir lists . and .. too (C114_listdir_children_refuted); two asterisks do not stand for any number of directories: not for none, not for more than five, and two pairs must stand for equally many (C114_glob_any_depth_refuted)."
 ],
 "C115": [
  "proved",
  "Linux: FD_CLOEXEC is the only descriptor flag."
 ],
 "C116": [
  "proved",
  "The resolver is an oracle. Refuted: a service that is no port number is not refused, numbers wrap modulo 65536, a host without addresses gives success without entry (C116_service_refuted)."
 ],
 "C117": [
  "proved",
  "The resolver and the database of services are oracles; little-endian machine. Refuted: the service name is that of the port with swapped bytes, as getservbyport is called with the port in host order (C117_service_name_refuted)."
 ],
 "C118": [
  "proved",
  "A labelled transition system: open, fchdir and the system call can fail, errno and lock failures are not modelled; the program closes no descriptor a call in progress uses. Refuted: criterion 2 of the comment in generic_at.c (that the program changes its directory nowhere else) does not suffice for code outside of these functions to be in its own directory (C118_criterion_2_refuted)."
 ],
 "C119": [
  "proved",
  "Refuted: bytes above 127 are sign-extended and do not come back (C119_high_byte_refuted); a size of 0 wraps around and overflows (C119_size_zero_refuted)."
 ],
 "C120": [
  "proved",
  "Refuted: a variable that occurs twice stays set (C120_duplicates_refuted); the template XXXXXX alone is refused (C120_bare_template_refuted); every successful mkdtemp closes descriptor 0, as it takes the 0 mkdir returns for a descriptor (C120_stdin_refuted)."
 ],
 "C121": [
  "proved",
  "The branches with F_CLOSEM and pstat are not modelled. Refuted without /proc: descriptors above a lowered limit stay open (C121_limit_refuted)."
 ],
 "C122": [
  "proved",
  "Texts of reals are an oracle (%.2f of strtod). Refuted: that only one level is accepted (C122_nested_refuted, a comment in the code concedes it)."
 ],
 "C124": [
  "proved",
  "Refuted: that text beyond ASCII can be given (C124_high_byte_refuted: isspace of a negative char is undefined)."
 ],
 "C125": [
  "proved",
  "OpenSSL's BIO chain is modelled by what it writes: base 64 in lines of 64 characters, each with a newline."
 ],
 "C126": [
  "proved",
  "Refuted: that the memory is given back when the file is longer than the limit (C126_leak_refuted: the text read is never freed). libyaml is an oracle for events; the ENV reader is C77."
 ],
 "C127": [
  "proved",
  "Refuted: that a number the key already holds may be passed again (C127_same_number_refuted: it is freed and still held)."
 ],
 "C129": [
  "proved",
  "Refuted: an option of value 0 passes for one with a one-letter form (C129_zero_refuted); the claim is for values from 1."
 ],
 "C130": [
  "partial",
  "Proved for options that all have a one-letter form and names of printable characters. Refuted: an option without one gets the low byte of its value, and if that is 0 its hint is lost (C130_long_only_refuted); a blank in the name cuts the title (C130_blank_refuted). gmtime_r and strftime are a parameter."
 ],
 "C131": [
  "partial",
  "Proved when the cleanup functions neither allocate, register functions nor call DoCleanupAndExit (C131_no_memory); in all other cases the caller does not go on (C131_does_not_return), but the process can hang for ever on cleanup_functions_mutex: RegisterCleanupFunction without memory (C131_register_refuted), a cleanup function without memory (C131_cleanup_refuted). One thread; the allocator is an oracle."
 ],
 "C132": [
  "proved",
  "On Linux, where setenv_wrapper is setenv (modelled on a list of entries); the branch for other systems writes to a const array and is not modelled."
 ],
 "C133": [
  "partial",
  "vsnprintf is the model of libcompat/snprintf.c (C91-C93), with its restrictions. With size 0 a text of INT_MAX characters makes it write outside of the buffer (C133_size_zero_refuted)."
 ],
 "C134": [
  "partial",
  "vsnprintf and vasprintf are the models of libcompat/snprintf.c (C91-C93), with the restrictions of C91 on the formats; what %n stores is left out. A BufferPrintf that fails loses the text (C134_failure_keeps_the_text_refuted)."
 ],
 "C135": [
  "partial",
  "vsnprintf and vasprintf are the models of libcompat/snprintf.c (C91-C93), with the restrictions of C91 on the formats; what %n stores is left out. From 2^64 on StringFromDouble ends the process (C135_large_double_refuted)."
 ],
 "C136": [
  "partial",
  "vsnprintf and vasprintf are the models of libcompat/snprintf.c (C91-C93), with the restrictions of C91 on the formats; what %n stores is left out. After a write error rpl_vfprintf gives the number of characters written instead of a negative number (C136_write_error_refuted). WriterWriteF is about string writers (malloc'ed text); file writers are those of C136_vfprintf through fwrite."
 ],
 "C137": [
  "proved",
  "Doubles are rational numbers without infinities and NaN; the exact formulas are about exact arithmetic, the signs hold for every monotone rounding that keeps 0 and 1."
 ],
 "C138": [
  "proved",
  "Doubles are rational numbers m*2^e in the binary64 range; the sign of zero is not modelled."
 ],
 "C139": [
  "proved",
  "For lists that do not change while the iterator walks; what happens to it then is C20_iterators_notice_removals and C20_stale_iterator_refuted."
 ],
 "C140": [
  "partial",
  "SafeStringLength converts the length to int: for a string of 2^31 bytes or more it is not the length (C140_length_refuted); everything else holds fully. The int counter of String2StringArray is unbounded in the model."
 ],
 "C141": [
  "partial",
  "False as stated when a formatted write fails: WriterWriteF then returns the greatest size_t (C141_write_f_refuted), which WriteLenPrefixedString takes for success, so SeqStringWriteFile returns true whatever was lost (C141_save_failure_unnoticed_refuted, C141_full_disk_refuted). Proved for streams that do not fail, and for the unformatted calls on all streams."
 ],
 "C142": [
  "proved",
  "Proved as stated for one mutex and one condition. If the clock is set forward a wait times out early, as CLOCK_REALTIME is used (C142_early_refuted). A mutex that is not of the error-checking type need not notice a wrong unlock or wait: then the behaviour is undefined (C142_ends)."
 ],
 "C143": [
  "proved",
  "Proved as stated. The average it also prints is 0 divided by 0 for a table from which everything was removed (C143_average_of_nothing_refuted). The layout of the lines is not modelled."
 ]
}