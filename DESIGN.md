# Formal model of cfengine/libntech in Rocq (Coq 8.16.1)

## Method
Each C module is modelled, function by function, by total computable Gallina functions
(`theories/*Model.v`; no proofs there). Every definition cites the file and lines of /repo
it models and says where it simplifies. The result type is

    res A = Ok a | UB | Abort | Fuel

`UB` is undefined behaviour (access outside an allocation, read of a cell nobody has
written, use after free, double free, NULL dereference, signed overflow where it is
modelled), `Abort` a failing `assert`/`exit`/`ProgrammingError`/`UnexpectedError`, `Fuel`
a loop that did not end within its bound. A theorem with conclusion `= Ok ...` therefore
includes memory safety and termination, and the fuel given is always one the model itself
supplies (the length of the text, say), not a hypothesis.

* `*Spec.v` and the heads of the `Props*.v` files hold the specifications: plain
  list, finite-map, grammar and arithmetic definitions that do not use the model's helpers.
* `*Facts.v`, `*Proofs*.v` and the other files hold lemmas.
* `Props*.v` hold the property theorems `Cnn_*`, each with `Print Assumptions` and with an
  `Example` (or a `_refuted` witness) beside it showing that a non-trivial case meets the
  hypotheses.
* Where the code violates the natural property, the full statement stays in
  properties.jsonl, a `Cnn_*_refuted` theorem exhibits the violation in the model, and a
  `Cnn_*_partial` theorem proves the property on the exact domain where it holds.
* `seeded/LOG.jsonl` records wrong programs tried against the theorems (`tools/mut.py`).

## Trusted base
* The Coq 8.16.1 kernel, including its `vm_compute` machine.
* `Print Assumptions` prints "Closed under the global context" for every property theorem:
  no axioms, neither our own nor the standard library's, are used. (The verdict of vcheck
  lists seven `Coq.ssr.ssrunder` parameters: they are module-type fields in a standard
  library file loaded by `lia`/ssreflect dependencies; no theorem here depends on them.)
* The hand translation from C to Gallina: nothing here runs the C code.
* The models of the environment:
  * C implementation: LP64, 8-bit bytes, two's complement, plain `char` signed, ASCII "C"
    locale. `malloc` never fails (x*alloc ends the process). `size_t`, `long` and `int`
    arithmetic wraps or is UB where a definition says so (numeric parsing, UnsignedModulus,
    length prefixes, Buffer and Writer sizes, JSON integers); loop counters and lengths
    elsewhere are unbounded naturals. Stack depth is not modelled.
  * `Libc.v`: strlen, strchr, strstr, strcspn, memcpy/memmove, memset, strtol/strtoul,
    printf of %s %d %ld %zu %lu %x %c %10d, ctype, sscanf subsets, as the C standard
    describes them. Reading `real` numbers and printing them with %f is a parameter of the
    models that need it (a function from text to text).
  * Kernel calls (`read`, `write`, `lseek`, `fstat`) answer from an arbitrary script:
    short counts, EINTR, errors and end of file at any point.
  * Threads (`TQModel`, `ConcModel`, `CleanupModel`): interleaving semantics over the
    statements between lock operations, mutexes and condition variables with arbitrary
    schedules, spurious wake-ups included; sequentially consistent memory.
  * Callbacks (comparators, hash functions, equality, copy, predicates) are pure functions;
    destructors append to a trace.
  * Random numbers: an arbitrary stream.
  * File system (`FsModel`, C86-C90): inodes with owner, group, mode and contents, POSIX path
    resolution with links (40 at most). Before each system call of the process the
    environment may replace the whole file system by another one and may make the call fail;
    `close` and `geteuid` are no such points. Permission checks only exist as arbitrary
    failures. `..` is an ordinary directory entry; O_CREAT through a dangling link (never
    asked for by the code) and set-id bits are not modelled. dirname/basename are POSIX's.
* Memory: containers with manual memory (sequence, ring buffer, rb-tree, list, ref-count,
  threaded queues, buffer, strings in caller's arrays) are modelled on explicit cells or
  heaps with allocation and freeing; map.c/hash_map.c/array_map.c buckets, JSON trees and
  mustache's scopes are values (their functions never alias what they own), with destructor
  traces where a property speaks about destruction.

## What is modelled
sequence.c, array_map.c, hash_map.c, map.c, set.c, rb-tree.c, ring_buffer.c, stack.c,
stack_base.c, queue.c, threaded_stack.c, threaded_queue.c, threaded_deque.c, list.c,
refcount.c, buffer.c, pcre_wrap.c (C81, C82), writer.c, csv_writer.c,
csv_parser.c, xml_writer.c, string_sequence.c, string_lib.c (without StringVFormat,
StringHash and the floating point functions), path.c, version_comparison.c,
ip_address.c, json.c (without the iterators' accessors, thin typed getters/appenders and
reading from files through pcre), mustache.c, cleanup.c, misc_lib.c
(UpperPowerOfTwo, UnsignedModulus, ISPOW2), file_lib.c (full reads and writes, FileRead
into a Writer, sparse copies, name predicates, MapNameForward), libcompat
strlcpy, memmem, memrchr, strnlen, strndup, strdup, memdup, strstr, strcasestr, strcasecmp,
strncasecmp, strrstr, strchrnul, strsep, stpncpy and getline (C70-C75), json-utils.c (without JsonReadDataFile's choice and
the YAML reader), CfReadLine/CfReadLines of file_lib.c, proc_keyvalue.c (C76-C80), hash.c over an OpenSSL oracle (C83-C85),
safe_open/creat/fopen(flags)/chown/lchown/chmod/chdir of file_lib.c over a model of the file system (C86-C90),
rpl_vsnprintf and rpl_vasprintf of libcompat/snprintf.c (C91-C93; long double arithmetic is exact in the model);
logging.c with the expanded text, the time stamp and the outputs as inputs and a trace (C94-C98);
the file locks of file_lib.c over POSIX record locks (C99-C100);
unix_dir.c and DeleteDirectoryTree over the same file system (C101-C102);
inet_ntop.c and inet_pton.c of libcompat (C103-C104).
json.c again, at the level of memory: elements and strings as allocated objects, every function that creates,
appends, removes, detaches, extends, copies, destroys or iterates (C105-C106; the values are those of C21 ff.). known_dirs.c (C107). json-yaml.c (C108-C109; libyaml is the list of events it reports). regex.c and StringCaptureData (C110-C111; PCRE is an oracle that keeps what pcreapi promises). passopenfile.c, SUS interface on Linux (C112). File_Copy, File_CopyToDir, ReadFileStreamToBuffer, ListDir, GlobFileList, SetUmask, RestoreUmask, SetCloseOnExec of file_lib.c (C113-C115; opens, stdio, readdir and glob are oracles). libcompat/getaddrinfo.c without gai_strerror (C116-C117; the resolver is an oracle). libcompat/generic_at.c with openat.c, fstatat.c, fchmodat.c, fchownat.c and readlinkat.c (C118; errno is left out). libutils/unicode.c (C119), libcompat/unsetenv.c for SVR4 and mkdtemp.c (C120), closefrom.c without F_CLOSEM and pstat (C121), StringSetToJson, JsonArrayToStringSet and JsonPrimitiveToString (C122). StringHash (C123), IsStrIn, IsStrCaseIn, TrimCSVLineCRLFStrict (C124), encode.c (C125; OpenSSL's base 64 BIO is a function). FileRead, JsonParseFile, JsonParseYamlFile, JsonReadDataFile (C126). libcrypto-compat.c for OpenSSL before 1.1, without EVP_MD_CTX, EVP_CIPHER_CTX_iv, RSA_bits, EVP_PKEY_get0_RSA (C127-C128). WriterWriteHelp (C129), man.c (C130; the date is a parameter). alloc.c (C131; the C library's allocator is an oracle). putenv_wrapper, xsnprintf (C132-C133; setenv of the C library on a list). BufferPrintf, BufferVPrintf, BufferAppendF, StringFormat, StringVFormat, StringFromDouble, WriterWriteF, CsvWriterFieldF and rpl_vfprintf (C134-C136, in `FormatModel`). GAverage, QAverage, QDefinite and round (C137-C138, in `StatisticsModel`). ListIteratorFirst, ListIteratorLast, ListIteratorPrevious and ListIteratorHasPrevious (C139, in `ListIterModel`). SafeStringDuplicate, SafeStringNDuplicate, SafeStringLength, NULLStringToEmpty, StringContains, StringContainsChar, and String2StringArray and FreeStringArray over a heap (C140, in `StrHelpModel`). FileWriterWriteF, FileWriterWriteLen on a failing stream and SeqStringWriteFile (C141, in `FileOutModel`); fwrite, vfprintf and fclose of the C library are a script of outcomes. ThreadLock, ThreadUnlock and ThreadWait of mutex.c (C142, in `MutexModel`); pthread is a transition system after POSIX, any call of which may fail. MapPrintStats and HashMapPrintStats (C143, in `MapStatsModel`), as numbers.

Not modelled: everything that is a call into OpenSSL, PCRE, libyaml, syslog, PAM or the
Windows API (the digest functions, PCRE matching (an oracle for pcre_wrap.c)), the console and syslog back ends of logging.c, getopt.c,
floating point rounding.

## Plan per property (statements are in properties.jsonl)
| id | model | proof |
|---|---|---|
| C01, C02 | `SeqModel`: array of cells with uninitialised ones, ItemDestroy trace | refinement of every operation to lists, induction over histories of calls |
| C03 | QuickSortRecursive over index ranges with bounds-checked reads | invariants of the Hoare partition, strong induction; out-of-bounds read for inconsistent comparators refuted |
| C04 | bisection loop | invariant on low/high |
| C05 | Fisher-Yates with a random stream | swaps preserve Permutation; every permutation reached by induction |
| C06-C08 | `MapModel`, `SetModel`: array map, buckets, conversion, resizing | refinement to association lists with unique keys over histories |
| C09 | StringSetAddSplit, StringSetToBuffer | split/join lemmas; lost empty element refuted |
| C10, C11, C56, C57 | `RBModel`: heap of nodes with parent/left/right/colour and two sentinels | the heap represents a tree; red-black invariants through both fix-ups; refinement to a sorted association list |
| C12 | RBTreeCopy with its node array | exact on even counts, odd counts and empty tree refuted |
| C13-C15 | `ContModel` | refinement to lists |
| C16, C19 | `TQModel` circular arrays with growth | index arithmetic, refinement to lists |
| C17, C18 | interleaving semantics of the threaded containers | invariants over schedules, linearisation at the unlock; lost wake-ups of PushN refuted; copies (observed by popping them) are calls of the schedules, the creation of their own mutex and conditions is assumed to succeed |
| C20 | `ListModel`: nodes, headers, reference counts, iterators on a heap | groups of sharing lists as invariant; refinement to independent lists over histories; seven refuted shapes |
| C21, C22 | `BufModel`: cells, capacity, mode | histories of calls; order of mixed modes refuted |
| C23 | `WriterModel` | invariant; overflow at INT_MAX refuted |
| C24-C26 | `CsvModel`: writer and parser automaton with its unterminated buffer | simulation against a grammar of records; refuted shapes |
| C27 | `XmlModel` | independent XML reader inverts the writer; attributes refuted |
| C28, C64 | `StrSeqModel` | round trips in memory and through files, exact acceptance; damaged prefixes refuted |
| C29, C58-C61, C65 | `CmpModel`, `EditModel`, `PathModel` | induction on strings over cell arrays |
| C30, C32-C37, C55 | `EditModel`, `PathModel` | same; overflows refuted |
| C31 | `NumModel` with strtol | numerals as a relation, exact results |
| C38, C39 | `MiscModel` on bounded integers | bit lemmas, lia |
| C40 | version_comparison.c with sscanf | order laws; transitivity refuted for unparsable text |
| C41-C44, C66 | `IpModel` automata | induction over digits; refuted shapes |
| C76-C80 | `EnvModel` on `CompatModel`'s streams and getline | grammar `EnvSpec` of env lines; in-place filter by an invariant on read and write position; induction over the lines of the stream |
| C81-C82 | `PcreModel` on `BufModel`; pcre_compile and pcre_exec are oracles | grammar `denotes` of substitutes and relation `matches` in `PcreSpec`; compiling by induction on the grammar with an invariant on blocks and references, sizes by exchanging the sums over groups and references, copying by induction over the matches |
| C83-C85 | `HashModel` on `EditModel`, `IoModel`; EVP_get_digestbyname is an oracle | `HashSpec`: sizes, prefixes, `is_hash`; loops by induction with explicit memory contents; injectivity of hexadecimal notation |
| C91-C93 | `PrintfModel` (libcompat/snprintf.c: state machine, fmtstr, fmtint, fmtflt over exact rationals, convert) | `PrintfSpec`: C99 7.19.6.1 as a relation between directives, arguments and text; turn-by-turn simulation; C92: invariant and measure for arbitrary formats; five refuted departures from C99 |
| C94-C98 | `LogModel` (libutils/logging.c; threads are numbers, back ends a trace of events) | `LogSpec`: what each thread and the process know after a history of calls; invariant relating contexts to that account; C96: induction over the list of names on memory cells |
| C99-C100 | `LockModel` (lock functions of file_lib.c as programs issuing system calls; a transition system of processes over fcntl(2) record locks and descriptors) | `LockSpec`: what the callers know from the calls and results; inductive invariant linking this to the locks and descriptors of the operating system; runs for the refutations |
| C101-C102 | `DirModel` (DirOpen/DirRead/DirClose, DeleteDirectoryTree over FsModel; order of names and refused removals are oracles) | `DirSpec`: trees of names, pruned and emptied file systems; induction over the tree with "only names below removed" as invariant; four refutations (race, own contents, truncated paths, endless recursion) |
| C103-C104 | `InetModel`: byte arrays and buffers with uninitialised cells, every loop of inet_ntop4/6 and inet_pton4/6 | `InetSpec`: RFC 4291 texts and the canonical text; loop invariants on the text read so far; the choice of the zero run by enumeration of the 256 patterns of zero words; round trips; refutations of texts accepted beyond RFC 4291 |
| C105-C106 | `JsonHeapModel`: a heap of elements and strings, UB for an address that is not allocated; every json.c function on it | `JsonHeapSpec`: trees labelled with addresses, `forest h F` (the heap is exactly these trees), rules for the caller, programs; `JsonHeapProofs*`: permutations of the entries, one lemma per call, induction on programs |
| C107 | `KnownDirsModel`: the static buffers as state, what a call finds outside (uid, home, override) as input | in `PropsKnownDirs`: invariants on histories of calls |
| C108, C109 | `YamlModel`: the loop over the events with fuel, `YamlSpec`: documents as trees, the events libyaml reports for them, and what they mean | `YamlProofs`: fuel irrelevance, induction on the meaning of nodes; in `PropsYaml`: termination and well-formedness for all events |
| C110, C111 | `RegexModel` over an arbitrary pcre_exec and name table in memory; `RegexSpec`: what PCRE promises | in `PropsRegex`: case analysis, induction on groups and entries |
| C112 | `PassModel`: the socket as a queue of messages with descriptors | in `PropsPass`: invariant over interleavings |
| C113-C115 | `FilesModel`: contents by inode, scripts of short and failing reads and writes | in `PropsFiles`: induction on the copy loop; C30, C37, C58 and the set proofs for the lists |
| C116, C117 | `AddrinfoModel`: a heap where each allocation can fail, buffers as cells | in `PropsAddrinfo`: ownership invariant, induction on the addresses |
| C118 | `AtModel`: threads as a labelled transition system | in `PropsAt`: invariants over all runs (who has the lock, which descriptors belong to whom, what each thread has done) |
| C119-C121 | `SysModel`: buffers as cells, the environment as an array, answers of mkdir, readdir and sysconf as parameters | in `PropsSys`: loop invariants by induction |
| C122 | `SetJsonModel` on the models of sets (C08, C09) and JsonWalk (C67) | in `PropsSetJson`: induction on the elements in preorder |
| C123 | `TextModel`: 32-bit arithmetic on N | in `PropsText`: h += h << k is multiplication by an odd number, h ^= h >> k is injective, so each step is injective in the state and in the character |
| C124 | `TextModel`: lists that end with NULL; isspace of a plain char is undefined below EOF | in `PropsText`: induction on the list; the asserts one by one |
| C125 | `TextModel`: what the BIO chain writes, calloc and memcpy of all but the last newline | in `PropsText`: an independent reader of base 64 inverts it, induction by triples; cutting into lines by induction |
| C126 | `DataFileModel` on `IoModel`, `JsonModel`, `YamlModel`, `EnvModel`, with counts of open descriptors and live writers | in `PropsDataFile`: from C62, C46, C108 and C78; texts that spell JSON hold no NUL, by mutual induction |
| C127 | `CryptoModel`: records of pointers, the set of allocated numbers, freeing one that is not allocated is UB | in `PropsCrypto`: an exact equation for each setter, then one induction over histories for all kinds of objects |
| C128 | `CryptoModel`: a heap of methods and texts, allocation that can fail | in `PropsCrypto`: the heap is the old one with the method and its name in front, kept by every operation |
| C86-C90 | `FsModel` (kernel), `SafeModel` (file_lib.c) with a log of what the process saw and did | `SafeSpec`: trails of checked steps, `resolves`, `safely`; induction on the path for every schedule; four refuted claims about who is trusted, safe_chown of links refuted |
| C70-C75 | `CompatModel` | loop invariants over cells; streams and allocator as oracles for getline |
| C45-C50, C67-C69 | `JsonModel` | mutual induction over trees; RFC grammar as relation; refuted shapes |
| C51 | `MustModel`: scanner, standalone lines, scopes, rendering | templates as syntax trees with a printer and a meaning; Render of the printed tree = meaning, by induction over trees; scope leak refuted |
| C52, C62, C63 | `IoModel` with scripted kernel | induction over the script |
| C53 | `CleanupModel` threads | invariants over schedules; re-entrancy refuted |
| C54 | `RefModel` heap | histories; last owner refuted |
| C129 | `HelpModel`: the loops over the caller's arrays, any writer | in `PropsHelp`: composition of writes; induction over the tables; lines and options read back |
| C130 | `HelpModel`, dates by an oracle | in `PropsHelp`: the same, with C60 for the title and C31's numerals for SOURCE_DATE_EPOCH |
| C131 | `AllocModel`: requests, blocks and cleanup functions as a state machine with an allocator oracle; nested DoCleanupAndExit | in `PropsAlloc`: case analysis over requests and answers, induction over the registered functions; C93 for the text |
| C132 | `MiscLibModel`: putenv_wrapper over cells, setenv over a list of entries | in `PropsMiscLib`: induction over the environment |
| C133 | `MiscLibModel`: xsnprintf over `PrintfModel` | in `PropsMiscLib`: from C91 and C92 |
| C134 | `FormatModel`: BufferVPrintf and BufferAppendF over `PrintfModel` and `BufModel` | in `PropsFormat`: from C91-C92, with the buffer invariant |
| C135 | `FormatModel`: xvasprintf, StringVFormat, StringFromDouble | in `PropsFormat`: from C91 and C93 |
| C136 | `FormatModel`: rpl_vfprintf over a stream with limited room, StringWriterWriteVF, CsvWriterFieldVF | in `PropsFormat`: from C91, C93 and the writer invariant |
| C137 | `StatisticsModel`: the averages over rational numbers with a rounding after every operation | in `PropsStatistics`: induction over the history |
| C138 | `StatisticsModel`: round over binary64 numbers as rationals | in `PropsStatistics`: the fraction is exact, case analysis |
| C139 | `ListIterModel` with `ListModel`: light iterators over the node heap | in `PropsListIter`: from the heap invariant of C20, induction over the moves |
| C140 | `StrHelpModel` with `CompatModel` (strdup, strndup), `Libc` and the heaps of `ListModel` | in `PropsStrHelp`: induction over the array and over the pieces, from the specification of the pieces in C36 |
| C141 | `FileOutModel` with `WriterModel` and `StrSeqModel`: a stream is what it took and the outcomes of the coming calls | in `PropsFileOut`: case analysis on the outcome, induction over the sequence |
| C142 | `MutexModel`: a transition system of the pthread primitives with the wrappers' reaction to each result, and a history of calls and returns with the time | in `PropsMutex`: invariants over all reachable states, relating the history to the owner of the mutex and the clock |
| C143 | `MapStatsModel` on the tables of `MapModel` | in `PropsMapStats`: loop invariants, the table invariant of `MapProofs` |
