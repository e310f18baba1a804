# Formal model of herumi/cybozulib in Rocq (Coq 8.16.1)

## Conventions

* One set of files per header of `/repo/include/cybozu`:
  `XModel.v` (the code, function by function, every definition cites file and lines),
  `XSpec.v` (small independent specification, no reference to the model),
  `XProof.v` (lemmas), `XProps.v` (the property theorems, non-vacuity `Example`s and `Print Assumptions`).
* Machine integers and bytes are `Z` with explicit `mod 2^w` where the C++ type wraps; `char` signedness
  is modelled explicitly where it matters (x86/ARM-Linux `char` conversions are noted in comments).
* Memory is lists with checked access. Out-of-range access and other undefined behaviour is a distinct
  outcome (`UB`), exceptions are a distinct outcome (`Exn`), fuel exhaustion is a distinct outcome (`Fuel`).
* Streams: an input stream is the remaining bytes plus a *schedule* that decides how many bytes each
  `readSome` returns (at least 1 unless at end of data or asked for 0). Theorems quantify over the schedule.
* External code (kernel calls, OpenSSL, zlib) is never axiomatised: it is a function/schedule
  argument of the theorem, with explicit hypotheses where needed.
* Loops are structural recursion or fuelled recursion with a proof that the fuel suffices.
* A property that is false of the code as written is stated with its exact domain; the failure is proved
  as a theorem `..._refuted` (or `..._finding`) with a concrete witness, and listed under *Findings*.

## Trusted base

* Coq 8.16.1 kernel (`coqc`, `coqchk`), including its `vm_compute` conversion where used.
* No axioms: every `Print Assumptions` at the end of the `*Props.v` files is expected to print
  "Closed under the global context" (exceptions, if any, are listed in *Axioms* below).
* The hand translation from C++ to Gallina. Line citations are in the model files. What is simplified is
  said in the comment of each definition.
* The C++ language rules assumed: LP64, two's complement, 8-bit bytes, little-endian host unless a
  theorem quantifies over it; `std::string/vector/map/set` behave as lists / finite maps; allocation succeeds.

## Plan per property

| Id | Model | Proof idea |
|----|-------|-----------|
| C01-C02 | `atoi.hpp` parse loops over byte lists with explicit size / NUL mode, typed bounds; `itoa.hpp` digit loops | induction on digits; Horner value; bound arithmetic by `lia` |
| C03-C04 | hex/bin loops, right-aligned caller buffers as lists | digit-list spec in base b, injectivity, buffer prefix untouched |
| C05-C07 | encoder/decoder state machines with chunked input, output buffer counters | invariants: output so far = RFC 4648 text of consumed groups; decoder = function of filtered alphabet string |
| C08 | both `#if` branches | byte-digit expansion lemmas |
| C09-C10 | variable int codec for 4 and 8-byte types; container codecs as combinators | case analysis on recover tests with `lia`; induction over containers |
| C11-C12 | stream classes with schedules | induction on remaining size |
| C13-C14 | reader automaton over chars with refill, writer | automaton invariant by induction on fields/chars |
| C15-C16 | buffer, next_, bufSize_ state of LineStream | invariant: buffer ++ unread = remaining data; fuel bound |
| C17-C19 | byte-level decoder/encoder, UTF-16 conversions | range case analysis, list induction |
| C20-C22 | iterators over lists | induction |
| C23-C25 | block lists and multi-word shifts for arbitrary word size | `Z.testbit` extensionality, refinement to `list bool` |
| C26-C29 | rank blocks, byte counters, sampled select table, 8-bit select table | invariants on tables; binary search invariant; finite checks for the 256x8 table |
| C30 | layers as bit lists with rank/select from C26/C27 contracts | stable-partition invariants layer by layer |
| C31 | all of `fmindex.hpp` over the models of C23-C30 and C52; `saisxx` as a parameter that returns the suffix array (`sais_ok`), discharged by C64 (`C31_index_end_to_end`) | suffix-interval invariant, LF-mapping |
| C64 | all of `suffixsort`/`induceSA` on one memory list, with bucket arrays in it or allocated; allocation results as a parameter | LMS-type invariants of the two induction loops, order of LMS substrings, recursion on the reduced text |
| C65 | `computeBWT`, `saisxx_bwt` on the same model of `suffixsort` | the slot invariants of C64 with another representation of the slots; losslessness by the LF-mapping of C31 |
| C32 | encoder/decoder of the code table | invariants on block/skip tables |
| C33-C36 | streaming buffers, unrolled rounds; FIPS 180-4 and RFC 2104 as spec | update = fold over blocks; symbolic round unrolling |
| C37-C39 | word-level model | bit extensionality, injectivity |
| C40-C41 | loops over lists; storage record with capacity | permutation; refinement |
| C42-C44 | text parser, option table interpreter | induction over lines / arguments |
| C45-C46 | escape/unescape, recursive descent parser with fuel | induction, fuel monotonicity |
| C47-C48 | civil calendar as the model of `gmtime_r`/`timegm` (external), text layer of the code | div/mod arithmetic |
| C49-C51 | gap codec, iterators, insertion table | invariants over histories |
| C52 | count/sort/index tables; `std::sort` as any function returning a sorted permutation | permutation reasoning |
| C53-C55 | small-step transition systems with any number of threads | inductive invariants over all interleavings |
| C56-C58 | kernel results as schedules; string functions; address records | induction / case analysis |
| C59 | counting tables | induction over the history |
| C60 | header parser, framing with deflate/inflate as parameters | case analysis |
| C61 | save/load of all members through the C09-C11 stream model | round trip of each member, layers re-established |
| C62 | Pcg32 state transition as an affine map mod 2^64 | full-period argument: iterates of an LCG with odd increment and multiplier = 1 mod 4 visit every state |
| C63 | RandomGenerator::read over a /dev/urandom schedule of short reads/errors | induction on the schedule: returns exactly the bytes delivered, or throws |
| C66-C67 | `Start` as a function of the caller's descriptor table (POSIX lowest-free-number rule) and of a record of kernel decisions; the child's branch runs on its copy of the table | lookup lemmas for the table; case analysis on the decisions |
| C68 | `Process` objects as cells, the kernel's table of children, a trace of what can be seen | invariant: kernel table = life of each child read off the trace; exclusive ownership |
| C69 | `escape` and the command line; the splitting rules of Windows as specification | induction over the argument with pending backslashes |
| C70 | `Logger` as a record, the calls as operations that carry the results of the C library, a trace of opened/closed/written files; specification: the current destination after each call | invariant between the logger, the trace and the destination; induction over the history |
| C71 | the threads as a list of program counters, one step per lock/semaphore/event operation, schedules that choose the thread; a history of the calls | counting invariant over the threads; invariant between history and state; for the return of notifyAll a rank per thread that every turn lowers |
| C72 | the pthread keys with a value per key and thread, `Tls` objects as cells; specification: a value per object and thread | invariant: keys that exist = keys of the objects, values agree; induction over the history |
| C73 | both branches as functions of the results of the system calls on the table of descriptors and mappings; giving back what one does not have is UB | resource equation (process = owned by live objects ++ before) kept by construction and destruction |
| C74 | Strings in a store (so that arguments may alias), `std::basic_string` members as the standard describes them; specification by slices and by the text of the argument | case analysis over the members; induction over the decoding loops |
| C75 | `compare` and the twelve operators; specification: dictionary order | induction over the strings; first difference of UTF-8 encodings |
| C76 | registers as numbers below 2^128, instructions as the manual describes them | arithmetic of div/mod, bit by bit for the scans |
| C77 | tests as arbitrary functions of a world that also give their check results and how they end; `run` as a fold | induction over the list of tests; case analysis for the macros |
| C78 | the clock as a schedule of readings | induction over the rounds, arithmetic mod 2^64 |
| C79 | a heap of cells (strings, arrays, objects) with addresses never reused, every allocation may fail; statements of a program name places by paths | ownership invariant (each tree owns its cells, disjoint, nothing else allocated), induction over trees and programs |
| C80 | the TLS library as a schedule of answers; the object's life as a trace of system and library calls | induction over the schedule; a grammar of traces as invariant |
| C81 | contexts of the OpenSSL library as a heap of states; digest, MAC and block cipher as parameters; CBC/ECB and PKCS#7 streaming modelled | induction over the operations; streaming as a confluent drain of pending blocks; block by block round trip |
| C82 | threads as programs of scopes, small steps under any schedule; pthread mutex and condition variable as their POSIX definition | invariant: remaining execution of the current scope equals its whole execution from the last serial state |
| C83 | binary64 arithmetic as rounding of scaled integers (round to nearest even, subnormals, overflow) | neighbouring doubles of an integer; rounding lies between any doubles that enclose its argument |
| C84 | Exception as a string and a trace, appends that may fail, printf number texts | induction over the uses of the object; the symbol text is split at the first '(' and '+' |
| C85 | desymbol line by line, find as first occurrence, BFD section walk | one lemma per kind of line, composed over the file; with C03 and C84 for the round trip |
| C86 | the environment array, getenv and getenv_s | induction over the array |
| C87 | events: constructor steps, signals, handler returns | invariant over all event lists |
| C88 | Plsi over an arbitrary scalar type, with the sparse rows of C49 and the top-score table | loop invariants over observations and classes; ids by first appearance; induction over the calls |
| C89 | the same model over Coq's real numbers | Gibbs inequality for each block of parameters gives EM monotonicity; sums of the updates give normalisation |
| C90 | InitUnitMatrix and CompressCol over an arbitrary entry type with int overflow as UB | loop invariants; the groups as intervals i*g/n = j |
| C91 | OrthonormalizeMatrix and ComputeSVD over Coq's real numbers; the Jacobi SVD of the small matrix is a parameter with its contract | Gram-Schmidt invariant over the columns; projection algebra with finite sums |
| C92 | the Load and Save functions over byte lists with a model of istream extraction; text of double and its extraction are parameters with a contract (instance: int) | loop invariants over rows and columns; simulation between the sparse and the dense loader |
| C93 | mecab.hpp over an arbitrary analyser (parameters for its output text and nodes); nodes die at the next analysis; a history relation over parse, set and next | induction over the output text and over histories |
| C94 | the ctype and regex_traits specializations of regex.hpp, its mask table and its overloads over an arbitrary engine | the table checked entry by entry against the C locale classes, then lifted to every int; induction over ranges |
| C95 | format.hpp over an arbitrary formatting function that may depend on the destination, with a trace of allocation events | case analysis over failures; length of the text arbitrary |
| C96 | file.hpp class File over a kernel with directory, contents and descriptors; transfers are the loops of C56 | one theorem per call against an offset-in-a-byte-string specification, induction over the calls |
| C97 | histories of operations over a list of objects and the same kernel | invariant relating open descriptors to objects, induction over the history |
| C98 | socket.hpp class Socket over a kernel table of sockets with states, options and queues; environment records for the outcomes of system calls | case analysis per call against an independent description of the new state, induction over the queue |
| C99 | SocketAddr::set over an arbitrary resolver, toStr over an arbitrary IPv6 printer | characterisation of the loop, uniqueness of decimal texts |
| C100 | file.hpp free functions over a tree of nodes; path resolution with links as the kernel does it | induction over path parts and links; case analysis of rename |
| C101 | GetFileList over the entries readdir reports; FileInfo; GetExePath over readlink | induction over the entries |
| C102 | string.hpp stream functions over a model of std::istream (rest, eofbit, failbit); load/save over the serializer model | induction over lines and words, UTF-8 lemmas of C17/C18, C09/C11 for the serializer |
| C103 | thread.hpp Sleep over a model of nanosleep whose interruptions and lateness are a schedule | induction over the schedule |
| C104 | thread.hpp Begin over arbitrary results of the pthread calls, with a trace of effects | case analysis over all results |
| C105 | atomic.hpp operations as single steps of a memory of objects; a run is any sequence of calls of any threads | induction over the run, projected to one object |
| C106 | option.hpp isSet, operator<<, Var copies and vector growth over the parser model of C44 with the address of each bound variable | from C44's reading of the command line; C43 for integer texts |
| C107 | csucvector.hpp Bigram: the table of counters, the multimap ordered by counter, the joined code | induction on the sequence; sortedness of insertion; bitwise comparison of the joined words |
| C108 | minixml.hpp with an address for each Node: allocation, ownership, the destructor, several calls of parse on one object | simulation of the parser of C46 by one that numbers its nodes, also on the paths that throw |
| C109 | sha2.hpp in its three builds, with a heap of EVP_MD_CTX; OpenSSL computes SHA-2 | simulation of one specification by each build, with the invariants of C34 and C35 for the built-in one |
| C110 | csv.hpp CsvReader and CsvWriter on a map from names to contents, with a decision (keep, send, fail) for every write of the stream | invariant contents ++ buffer = text so far; composed with C13 |
| C111 | config.hpp getValue for integers, load by name, and load with the sections read so far kept when it throws | C02 and C01 for the numbers, C42 for the text, induction on the lines for the failing load |
| C112 | sample/fmindex_smpl.cpp with its command line, on a map of files | C31 and C64 for the index, induction on the words of the query file and on the calls of std::string::find |
| C113 | the steps of threads that iterate over one shared SparseVector, begin() with its writes to mutable members in single steps | an invariant for every thread (its cursor stands where C49 says) and a bound on the steps left, by induction on the schedule; a schedule that corrupts the vector |
| C114 | ZlibCompress and ZlibUncompress on byte buffers with the width of uLong as a parameter, zlib_smpl on a map of files; zlib is any pair of functions whose streams are not empty and are read back | case analysis on the room left, the buffer split at its end; a theorem on 32-bit uLong shows that 4 GiB are dropped |
| C115 | csucvector_smpl: the words of a mapped file, the compressed vector of C32, its saved form, the BitVector of C23, the comparison | C32 (queries, save and load) and C23 (set, resize) put together; the bits of a file against the bits of its words; induction on the bits read |
| C116 | option2_smpl: an Option with delimiters, the position it stops at, a second Option that goes on there | C44 for both parsers; a parser with one valued option reads exactly `-n v1 -n v2 ...`, by induction on the reading |
| C117 | Option::parse with what it prints (OptionError messages) and usage() | forgetting the output gives the parser of C44; the reading of C44 ends at the end, at a delimiter, at the help option or at one of ten reasons, each computed to its line |
| C118 | the loop of misc/make_select8tbl.cpp and the table it prints | the count is the number of set bits below i; select64 by uniqueness of the r-th set bit (C28); the table by computation |
| C119 | main and Run of sample/svd_smpl.cpp over a map from names to contents; the numeric part of ComputeSVD is a parameter | the loop over the arguments against a relation that splits a command line into names and ranks (unique reading); the files with the round trips of C92 |
| C120 | the load functions of the existing models | a predicate on loaders (deterministic, prefix-closed, throwing on strict prefixes) that read has by C11 and that is kept by sequencing, branching on loaded values and loops |
| C121 | ZlibFailModel.v: the compressor over an arbitrary output stream whose write may throw, with the state each exception leaves; the destructor | simulation with the never-failing model of C60 up to the first failure; a stream that stays broken is frozen after it; termination by the bound of zlib's contract |
| C122 | SaveModel.v: every save function as its sequence of writes on an arbitrary stream that may throw | the writes of a save make up the bytes of the existing models; a failing run leaves a prefix of them; C120 rejects strict prefixes, the round trip theorems give the whole |
| C123 | RandDevModel.v: the FILE as its remaining bytes and a schedule of short reads; every call and shuffle on it | one call takes a prefix of the remaining bytes (C63); induction over the calls; the shuffle loop keeps a permutation at every step |
| C124 | SocketSmplModel.v: options and start of socket_smpl, the server loop over a list of clients | the parse theorem C44 and the integer theorem C43 for the settings; C98 for bind; induction over the clients |
| C125 | ClockModel.v: the clock, addSec, getTimeSec with IEEE rounding on rationals | the error bound 2^-53 of one rounding; earlier instants have the earlier date; fixed-width fields compare like numbers |
| C126 | AllocaModel.v: the macro's size_t arithmetic over an arbitrary alloca | the mask clears the low bits (Z.ldiff_ones_r); the rest is division |
| C127 | SslSmplModel.v: the program over SslModel.v | C80 for the write; induction over the reads of the loop, and over a derivation that the page is delivered |
| C128 | LoadModel.v: load over an abstract stream with a partial readSome; the streams and structs of serializer_smpl | a simulation by the loads of SerializerModel, closed under sequencing; the round trip C10 and the cut theorem C120 are carried over; each stream class is shown to meet the contract |
| C129 | WmBenchModel.v: Naive and the comparison of bench_select | induction over the scans gives the same specification as C30; the place of the r-th occurrence is unique |
| C130 | MecabSmplModel.v: main over MecabModel.v; the mapping of the file is a parameter (C73) | C93 for parse; the words of a text without NUL have none, so printf prints them whole |

## Not modelled

Recorded here: the iterator classes of `regex`,
libc formatting (a parameter of `format`), Windows branches unless stated.

## What is modelled

Every definition in a `*Model.v` file cites the file and lines it models. In short:

| Model file | Code in `/repo/include/cybozu` |
|---|---|
| `AtoiModel`, `ItoaModel` | `atoi.hpp`, `itoa.hpp`: all integer overloads, hex and binary forms |
| `Base64Model`, `EndianModel` | `base64.hpp`, `endian.hpp` |
| `SerializerModel`, `StreamModel` | `serializer.hpp`, `stream.hpp` |
| `CsvModel`, `LineModel` | `csv.hpp`, `line_stream.hpp` |
| `Utf8Model`, `StrOpModel` | `string.hpp` (UTF-8/UTF-16 conversion), `string_operation.hpp` |
| `BitVecModel` | `bitvector.hpp` |
| `SucModel`, `CSucModel` | `sucvector.hpp`, `select8.hpp`, `bit_operation.hpp`, `csucvector.hpp` |
| `WaveletModel`, `FmModel` | `wavelet_matrix.hpp`, `fmindex.hpp` |
| `SaisModel` | `../sais.hxx` (single-threaded build): all of it: `saisxx`, `saisxx_bwt`, `suffixsort`, `induceSA`, `computeBWT`, `getCounts`, `getBuckets`; not the OpenMP build |
| `ShaModel` | `sha1.hpp`, `sha2.hpp` (hash and HMAC, non-OpenSSL branches) |
| `HashModel`, `RandModel` | `hash.hpp`, `siphash.hpp`, `xorshift.hpp`, `pcg.hpp`, `random_generator.hpp` |
| `ArrayModel`, `ConfigModel`, `OptionModel`, `XmlModel`, `TimeModel` | `array.hpp`, `config.hpp`, `option.hpp`, `minixml.hpp`, `time.hpp` |
| `SparseModel`, `TopScoreModel`, `TfIdfModel` | `nlp/sparse.hpp`, `nlp/top_score.hpp`, `nlp/tfidf.hpp` |
| `FrequencyModel` | `frequency.hpp` |
| `ParallelModel`, `EventModel`, `HandleModel` | `parallel.hpp`, `thread.hpp`, `event.hpp`, `atomic.hpp`, `socket.hpp` (ownership) |
| `TransferModel`, `FileNameModel`, `ZlibModel` | `socket.hpp`, `file.hpp` (transfer loops, names, addresses), `zlib.hpp` |
| `ProcessModel` | `process.hpp`: `Pipe`, `toDevNull`, `Start`, `IsAlive`, `Process`; the command line of the Windows branch |
| `LogModel` | `log.hpp`: `Logger` and the functions around it |
| `CondModel` | `condition_variable.hpp`: the Windows branch |
| `TlsModel` | `tls.hpp` (POSIX branch) |
| `MmapModel` | `mmap.hpp` (both branches) |
| `StringModel` | `string.hpp` (class String: contents and comparison; `find` and the other pure delegations to `std::basic_string` are not modelled) |
| `V128Model` | `v128.hpp` (shifts, rotations, swap, copy; the thin wrappers of single instructions only as far as these use them), `bit_operation.hpp` (portable branches) |
| `TestModel` | `test.hpp` (runner, comparisons, macros; the text of messages only as far as `run` prints the totals) |
| `BenchModel` | `benchmark.hpp` (`CpuClock` and the loops; `put` not: floating point and printf) |
| `JsonModel` | `json.hpp` (all of `Value`; `std::string`, `std::vector`, `std::map` each as one cell; recursion depth of the destructor not bounded by a stack size) |
| `SslModel` | `ssl.hpp` (`ClientSocket`; the global library set-up in `Engine` and `Ctx` not) |
| `CryptoModel` | `crypto.hpp` (`Hash` in both builds, `Hmac`, `Cipher`; the OpenSSL primitives are parameters, the streaming of `EVP_Cipher*` is modelled from its documentation) |
| `MonitorModel` | `mutex.hpp`, `critical_section.hpp`, `condition_variable_cs.hpp`, `condition_variable.hpp`: the POSIX branches (the pthread functions are taken as POSIX defines them) |
| `NlpRandModel` | `nlp/random.hpp` (doubles as integers in units of 2^-1127; infinities only as an absent result, NaN not; the words come from any generator) |
| `ExceptionModel` | `exception.hpp` (POSIX; `wstr2str` of the Windows branch too; the text an ostringstream makes of other types is an input; `CYBOZU_MINIMUM_EXCEPTION` not), `stacktrace.hpp` (POSIX branch, all four build variants; frames and symbol texts are inputs) |
| `DesymbolModel` | `sample/desymbol.cpp` (option parsing and opening files not), `bfd.hpp` (`getInfo`, `findAddress`; opening the file not) |
| `EnvModel` | `env.hpp` (both branches; getenv and getenv_s as the C libraries define them) |
| `QuitModel` | `quit_signal_handler.hpp` (POSIX branch; signals are delivered to one thread) |
| `PlsiModel` | `nlp/plsi.hpp` (class Plsi; the maps are association lists; scalar arithmetic is a parameter; printing not), the loading loop of `sample/plsi_smpl.cpp`; C89 instantiates the scalars with the real numbers, so rounding is not modelled there |
| `SvdModel` | `nlp/svd.hpp` InitUnitMatrix, CompressCol, OrthonormalizeMatrix, ComputeSVD (Eigen's JacobiSVD is a parameter; InitRandomMatrix not; C91 uses the real numbers, so rounding is not modelled there) |
| `SvdFileModel` | `nlp/svd.hpp` LoadHeader, LoadMatrix, LoadSparseMatrix, LoadVector, SaveMatrix, SaveSparseMatrix (row-major), SaveVector; istream extraction of char and int modelled, of double a parameter; stderr messages not |
| `MecabModel` | `nlp/mecab.hpp` all of Mecab; MeCab's Tagger is a pair of parameters |
| `RegexModel` | `regex.hpp` ctype<Char> and regex_traits<Char> (Windows), class names, constructors of regex, overloads of search, match and replace; the engine and the iterator classes are not modelled |
| `FormatModel` | `format.hpp` vformat (vasprintf and MSVC branches), both forms of format; libc's formatting is a parameter, the disabled branch is not modelled |
| `FileModel` | `file.hpp` class File (POSIX branches) over a kernel of names, contents and descriptors; the kernel's own behaviour (open, lseek, append, sparse writes) is modelled from POSIX, permissions are the schedule's choice, directories and links are not modelled |
| `SocketModel` | `socket.hpp` connect, bind, accept, queryAccept, timeouts, linger, waitForClose (POSIX; the epoll variant only for its findings); Linux's sockets are modelled from their documentation, buffer size options are not |
| `AddrModel` | `socket.hpp` SocketAddr::set, toStr; getaddrinfo and inet_ntop for IPv6 are parameters |
| `PathModel` | `file.hpp` GetFileSize, DoesFileExist, RenameFile, RemoveFile, FileInfo, GetFileList, readlink part of GetExePath (POSIX branches); path resolution, stat, rename, unlink, opendir are modelled from POSIX/Linux; hard links, mounts and permissions (other than a refusal) are not |
| `StrIoModel` | `string.hpp` getline, operator>>, operator<<, load, save, pop_back; std::getline and std::string extraction are modelled from the C++ standard in the "C" locale |
| `ThreadModel` | `thread.hpp` Sleep, GetProcessorNum, thread::Begin (POSIX branches); nanosleep and the pthread calls are modelled from POSIX |
| `AtomicModel` | `atomic.hpp` AtomicAdd, AtomicCompareExchange, AtomicExchange; the GCC builtins are single steps of a sequentially consistent memory; mfence is not modelled |
| `OptIoModel` | `option.hpp` isSet, operator<<, toStr, copies of Var and Option, growth of its vectors, getBaseName; usage() and the text of the error messages are not modelled |
| `BigramModel` | `csucvector.hpp` csucvector_util::Bigram without put() |
| `XmlObjModel` | `minixml.hpp` Attributes queries, Node allocation and destructor, MiniXml across calls of parse, copies of Node; put() is not modelled |
| `EvpModel` | `sha2.hpp` NewHash, Sha256, Sha512 on OpenSSL (both APIs) and hmac256; OpenSSL itself is trusted; failing allocation and an unknown digest name are not modelled |
| `CsvFileModel` | `csv.hpp` CsvReader, CsvWriter on std::ifstream, std::ofstream; what the stream library does with its buffer after an error is not modelled |
| `ConfigGetModel` | `config.hpp` ResultType, getValueInteger, load(name), the state of the object when load throws; the lifetime of the key behind ResultType is a flag |
| `FmSampleModel` | `sample/fmindex_smpl.cpp` (std::string build): parsing of the arguments, create, search, simpleSearch, recover, the handler of main; stdout is a list of lines, stderr and times are left out; atoi of the C library is a parameter |
| `SparseThreadModel` | `nlp/sparse.hpp` Curr, setup, ConstIterator as steps of threads on a shared object; the reads of one setup and a push_back are one step each |
| `ZlibBufModel` | `zlib.hpp` ZlibCompress, ZlibUncompress; `sample/zlib_smpl.cpp` main after the options; zlib itself is a parameter |
| `CSucSampleModel` | `sample/csucvector_smpl.cpp` test and main's status; the bytes behind the end of a mapped file are 0; not the line with the rate |
| `Option2Model` | `sample/option2_smpl.cpp` parse1, parse; not the printing; the texts operator>> reads as double and char are parameters |
| `OptionMsgModel` | `include/cybozu/option.hpp` the printf calls of parse, OptionError, usage, setUsage, setDescription; strings hold no NUL |
| `Select8GenModel` | `misc/make_select8tbl.cpp` |
| `SvdCmdModel` | `sample/svd_smpl.cpp`; messages, failing writes inside a file and the numeric part of ComputeSVD are not modelled |
| `ZlibFailModel` | `zlib.hpp:39-149` over an output stream that may throw, including the destructor; the text of its message is not modelled, deflate is a parameter |
| `SaveModel` | the save functions of `serializer.hpp`, `string.hpp`, `sucvector.hpp`, `csucvector.hpp`, `wavelet_matrix.hpp`, `frequency.hpp`, `fmindex.hpp`, `nlp/sparse.hpp` as single writes on an output stream that may throw |
| `RandDevModel` | `random_generator.hpp` 72-143 non-Windows: the throwing read, get32, get64, operator(), shuffle with a throwing generator, on a device with short reads |
| `SocketSmplModel` | `sample/socket_smpl.cpp`: options, the mode switch, the server loop; verbose output and the client branch (one connect and one write: C98, C56) are not repeated |
| `ClockModel` | `time.hpp`: `setCurrentTime` (POSIX branch), `Time(bool)`, `setTime`, `addSec`, `getTimeSec` as IEEE double arithmetic, `GetCurrentTimeSec` |
| `AllocaModel` | `inttype.hpp`: `CYBOZU_ALIGNED_ALLOCA`; the other macros (compiler and platform switches) have no behaviour to model |
| `SslSmplModel` | `sample/ssl_smpl.cpp`: the whole program; the text of exceptions is a parameter, connect succeeds or fails (C80, C98) |
| `LoadModel` | load of `serializer.hpp` and read of `stream.hpp` over any stream class; `sample/serializer_smpl.cpp` Data, Data2, VecInputStream, VecOutputStream; not main's literals; a std::istream is its bytes and whether it failed |
| `WmBenchModel` | `sample/wm_bench_smpl.cpp`: class Naive, the comparison in bench_select; not the timing loops and options |
| `MecabSmplModel` | `sample/mecab_smpl.cpp` main; the texts of messages are not modelled |

External code is a parameter with an explicit contract: the kernel (schedules of results), zlib, the standard
library's `sort`, `gmtime_r`/`timegm`, C++ `random_shuffle`, floating-point functions. Each contract is a named
predicate or record (`deflate_ok`, `srt_ok`, `sais_ok`, ...) with an instance proved beside it.

## Axioms

`Print Assumptions` at the end of every `*Props.v` file prints "Closed under the global context" for every
theorem in MANIFEST.json except those of C89 and C91, which are about Coq's standard real numbers and list the standard
library's `ClassicalDedekindReals.sig_forall_dec`, `ClassicalDedekindReals.sig_not_dec`,
`FunctionalExtensionality.functional_extensionality_dep` and (C89 only) `Classical_Prop.classic`. No other axiom is used. `coqchk` also lists, for the loaded standard library
modules as a whole, the seven parameters of `Coq.ssr.ssrunder` (`Under_rel.Under_rel`, `Under_rel_from_rel`,
`Under_relE`, `under_rel_done`, `Over_rel`, `over_rel`, `over_rel_done`): they belong to the sealed module of
the ssreflect library that comes with Coq, are loaded through `lia`, and no theorem uses them. For the files of C89
and C91 it also lists the fields of the sealed modules `Coq.Reals.Rdefinitions.RbaseSymbolsImpl` (`R`, `R0`, `R1`,
`Rabst`, `Rrepr`, `Rquot1`, `Rquot2`, `Rplus`, `Rmult`, `Ropp`, `Rlt` and their `_def` equations) and `RinvImpl`
(`Rinv`, `Rinv_def`): they are defined in the standard library and sealed there.

## Findings

Each is a theorem with a concrete witness: the code as written does not do what its interface suggests.

* `C01_ulong4_finding`: with a 4-byte long, itoa(unsigned long) prints the value as a signed int
* `C02_minus_junk_finding`: the deviation is reachable ("-128xyz" is accepted as -128), and the side conditions on readable bytes cannot be dropped (NUL-terminated "-1" and "x").
* `C02_nul_overread_finding`: parsing a NUL-terminated "-1" or "x" without a size looks past the terminator
* `C07_pad_finding`: the pad character does not end a group, so two padded texts one after the other do not decode to the concatenation of their contents
* `C09_cross_width_finding`: the encoding does not carry the width: 2^32-1 saved as unsigned int and loaded as an 8-byte unsigned gives 2^64-1
* `C14_cr_finding`: a CR inside quotes is lost
* `C14_ff_finding`: a 0xFF byte is taken for the end of the file
* `C14_open_quote_finding`: an unterminated quote holding nothing is reported as end of file instead of an error, the row read so far is lost
* `C15_last_cr_finding`: a CR before the end of the data is kept although one before LF is removed
* `C16_limit1_finding`: with maxLineSize 1 a one-character CRLF line is rejected; with 0 all data is silently ignored
* `C17_bad_lead_finding`: a byte that cannot start a character swallows the next two bytes even if they are valid characters, so Utf8ref with ignoreBadChar loses them
* `C18_negative_finding`: Char is signed on x86-64 Linux, and negative values count as valid one-byte characters
* `C19_surrogate_finding`: String::toUtf16 lets surrogate code points through, and String::append(Char16) accepts an unpaired trail surrogate
* `C22_empty_finding`: the two overloads disagree on an empty text and an empty target
* `C23_append_narrow_finding`: C23: append(uint64_t) of a full narrow block does not mask the value: bits beyond the block size reach the padding and become visible.
* `C23_extract_dst_finding`: C23: extract(BitVectorT&, ...) resizes its destination before throwing.
* `C23_extract_wrap_finding`: C23: the range check of extract wraps: pos + n overflows size_t and the read is out of bounds.
* `C24_dirty_finding`: C24: init from a block with bits beyond the length; equal bits compare different, growth shows a one, and append(uint64) ors into it.
* `C24_length_finding`: C24: vectors of different length compare equal.
* `C26_dirty_finding`: bits after bitSize in the last word are counted: bitSize 1, word 3
* `C26_rank0_finding`: rank0 beyond the size is not clamped
* `C27_block_counter_finding`: wrap_buf: 2^40 bits, of which the first 960 and the last 256 are set
* `C27_zeros_finding`: the number of zeros depends on how the same bits were built: 64 and 256 for one bit
* `C29_freezed_finding`: a loaded vector accepts set() although its index is then stale
* `C30_bitlen0_finding`: valBitLen 0 (one-letter alphabet): get reads a layer that does not exist
* `C30_rankLt_finding`: the 32-bit start table of rankLt cannot hold the running sum of a long vector (15 times its length reaches 2^32), so rankLt at position 0 is 2^32 or more instead of 0
* `C30_value_finding`: a value that does not fit in valBitLen bits: accepted without select, out of range with it
* `C31_raw16_finding`: FMindexT<uint16_t, true> refuses every text: charNum is 65536, which getBitLen says takes 17 bits, more than WaveletMatrix accepts
* `C31_raw_zero_key_finding`: raw mode: a key that ends in the terminator is "found" at the end of the text
* `C31_reinit_finding`: init on an object in use keeps the old samples and symbol counts: in the second text, of one symbol, that symbol is found at position 2
* `C31_sais_error_finding`: a negative result of saisxx other than -1 (-2: out of memory) is taken as success: with the array still zero, the text is not found in itself
* `C32_dirty_finding`: bits of the last word past bitSize are counted: the number of 1s of a one-bit vector is 1 although its bit is 0
* `C32_limit_finding`: from 2^32-2^14-2^10+2 bits the 32-bit positions wrap: an all-zero vector of 2^32-1 bits is read out of range
* `C32_reinit_finding`: a second init on the same object keeps the old blocks: a query reads out of range
* `C34_no_reset_finding`: unlike Sha1::digest, Sha256::digest leaves the object in its final state; a second digest without clear() is not the hash of the second message
* `C38_hash64_chain_finding`: hash64 of a concatenation is not the chained hash of its parts
* `C38_zero_finding`: chaining breaks when the hash of the first part is zero (which happens for four bytes), and it does not hold for hash64
* `C39_zero_seed_finding`: a zero seed is accepted and the generator then returns 0 for ever
* `C41_overflow_finding`: an element count whose byte size wraps gives a short block, and clearing it is undefined; assigning an array to itself by move empties it
* `C41_self_move_finding`: moving an array to itself empties it
* `C42_empty_key_finding`: the documented grammar says NAME = [0-9a-zA-Z_]+ but the empty key is taken
* `C42_global_section_finding`: an empty configuration saves text that loads as one with an (empty) global section
* `C42_value_cr_finding`: a value that ends in CR loses it in save/load
* `C42_value_lf_finding`: a value with a line feed saves text that defines another key
* `C43_hex_clobber_finding`: a rejected hexadecimal value still overwrites the variable with 0
* `C44_bad_rest_finding`: values the variable-length parameter cannot convert are dropped and parse still succeeds
* `C44_dash_exits_finding`: without appendHelp, the argument "-" prints the usage and ends the process
* `C44_start0_finding`: startPos 0 without a program name reads argv[-1]
* `C44_swallowed_delimiter_finding`: a delimiter that does not look like an option is swallowed by a preceding vector option
* `C44_twice_finding`: the same command line may be refused the second time parse does not start afresh: a parameter that was set by the first call is not free any more, so its argument is redundant in the second.
* `C46_empty_tag_finding`: "<a/>", without a space, is taken as the begin tag of an element named "a/".
* `C46_mixed_text_finding`: Of several text runs only the last is kept; entities in text and values are left undecoded.
* `C46_text_lost_finding`: operator<< loses the text of every element ...
* `C46_unescaped_finding`: ... and does not escape: a value holding a double quote yields another tree.
* `C47_feb30_finding`: February 30 is accepted and means March 2 (or 1); a "-0" is accepted as a number
* `C47_nul_finding`: a NUL ends a number: "1\0" is taken as 1
* `C47_overread_finding`: a 19-character text with a month name is read behind its end; a rejected text shorter than 23 characters is read behind its end when no pb is given; a failing call may already have changed the milliseconds
* `C48_before_1970_finding`: before 1970 the way back gives a time far in the future
* `C51_nan_finding`: scores that are not a number are never displaced by better ones
* `C51_setSize_finding`: after setSize every add is out of range
* `C51_small_finding`: sizes 0 and 1
* `C52_stale_finding`: a query between append() and ready() uses iterators that the insertion invalidated, and size() is the old one
* `C52_wrap_finding`: the counter and the index are only Int wide, and queries between append() and ready() use dead iterators
* `C53_begin_fail_finding`: when beginThread fails for a later worker, the exception destroys the Thread objects while earlier workers still run (~ThreadBase joins only after the derived part and err_ are gone)
* `C53_empty_what_finding`: an exception whose what() is empty is swallowed
* `C54_pipe_interrupt_finding`: a signal handler that interrupts read() makes wait() return without any wakeup, and one that interrupts a blocked write() loses the wakeup
* `C55_move_race_finding`: two threads that move to the same object at the same time leak one of the two handles, since the store in moveFrom is not an exchange
* `C55_overwrite_finding`: bind and accept on an object that is already open leak its handle: everything is closed, one handle stays open
* `C55_self_move_finding`: moving an object to itself closes its connection
* `C56_file_read_eof_finding`: File::read asked for more than the file has never returns, however often the kernel answers
* `C58_unset_finding`: an address that was not set (family 0) is not even the same as itself
* `C59_capital_keyword_finding`: a keyword with a capital letter is never found
* `C59_df_spelling_finding`: two spellings in one document count twice, so the document frequency exceeds the number of documents
* `C59_missing_vectors_finding`: fewer keywords than documents: the documents after the first (number of keywords) get no vector; a document without keyword gets no table, so positions shift
* `C59_term_oob_finding`: more keywords than documents: term() reads outside tf_
* `C60_trailer_unverified_finding`: the CRC and length after the data are never looked at: with any bytes there the data is returned as if intact
* `C63_int_cast_finding`: from 2^31 bytes the int cast asks the device for almost 2^64 bytes: the buffer overflows; at 2^32 nothing is read and a failure is reported
* `C66_intr_finding`: a signal that interrupts the caller's read turns a failed start into a reported success
* `C66_lost_finding`: when the loop does run it closes the pipe before execv, so that a program that cannot be executed is reported as started: true and the pid of a process that has already exited
* `C66_stdio_finding`: a caller without stdin and stdout gets the pipe on descriptors 0 and 1, which closeStdio then replaces
* `C66_uninit_finding`: maxFd is initialised from itself: whenever sysconf answers, a successful start reads an uninitialised variable
* `C66_zombie_finding`: the child that could not execute the program is waited for without blocking, so it may stay behind as a zombie
* `C67_empty_finding`: run(exe, p1, ..., p9) drops empty arguments, also in the middle
* `C67_stdin_finding`: if stdin is closed in the caller, closeStdio leaves it closed in the program (open returns 0, and 0 is then closed), so that the first file the program opens becomes its standard input
* `C68_assign_finding`: assigning to an object that has been used fails its assertion, also when its child has long ended
* `C68_reuse_finding`: an object keeps the pid after its child has been waited for; if the kernel uses the pid again for another child of the caller, the old object reports on that one and takes its exit code away
* `C69_backslash_finding`: an argument that ends in a backslash (a directory name, say) swallows the next one
* `C69_inject_finding`: an argument with a backslash before a quote ends its own quoting, and what follows becomes further arguments: one argument (a, backslash, quote, space, /x) arrives as two
* `C70_equal_finding`: a message whose priority equals the one set is shown, although the comment on SetLogPriority says that it is not
* `C70_leak_finding`: if the file in use cannot be closed, openFile throws after opening the new one, which is then never closed; the logger is left without any destination, so that the next message is lost
* `C70_nul_finding`: a message is cut at a NUL character
* `C71_steal_finding`: notifyAll without the mutex can hang: a thread that starts to wait meanwhile takes the unit of a thread that was waiting, which is not woken, and notifyAll waits for it for ever
* `C71_stored_finding`: a notification is kept: two calls of notifyOne for one waiting thread make a later wait return without a notification
* `C72_copy_finding`: Tls can be copied, but destroying the copy deletes the key of the original
* `C73_empty_finding`: for an empty file get() is the address -1 (MAP_FAILED) on POSIX, not a null pointer as on Windows
* `C73_size32_finding`: where size_t has 32 bits, a file of 4 GiB + 4096 bytes is mapped for 4096 bytes only, while size() is the size of the file
* `C74_append_self_finding`: append(const Char *p, count) with p pointing into the string itself reads freed memory as soon as the string has to grow before the last character is read (std::basic_string allows this call); without growth it appends the characters.
* `C74_self_assign_finding`: assigning a String to itself (s = s, s.assign(s)) empties it, and s.assign(s, off, n) empties it and throws std::out_of_range when off > 0: assign() clears before it copies. Every standard container supports self-assignment.
* `C75_utf16_order_finding`: unlike UTF-8, the order of UTF-16 code units is not the order of Strings: U+FFFF sorts before U+10000 as Strings and after it as UTF-16 text.
* `C76_rotate_far_finding`: rotrByte<n> and rotlByte<n> accept counts above 16 but do not rotate then: bytes are lost.
* `C77_equal_twice_finding`: CYBOZU_TEST_EQUAL evaluates its operands a second time when they differ: side effects happen twice and the printed values need not be the compared ones.
* `C77_float_finding`: float and double are compared by bit pattern: 0.0 and -0.0 differ, a NaN equals itself.
* `C77_size_int_finding`: comparing a size_t with a negative int succeeds for the wrapped value: SIZE_MAX equals -1.
* `C78_backwards_finding`: one reading that goes backwards (a move to another processor) ends CYBOZU_BENCH after that round with a time near 2^64.
* `C79_swap_part_finding`: swapping a json Value with an element of its own array leaks a cycle Value a(arr) with one string element; a.swap(element 0 of a): the variable now is the string and the array contains itself; after all variables have gone the array is still allocated and nothing points to it.
* `C80_close_first_finding`: close() of the TLS socket reports an error for an orderly close SSL_shutdown answers 0 when our close notify is sent and the peer's has not come yet, the usual case for the side that closes first; close() takes that for an error and throws
* `C80_read_eof_finding`: read of the TLS socket never returns once the peer has closed the connection readSome reports the close by 0; read does not look at it and calls again, for ever (Socket::read throws)
* `C80_reconnect_finding`: after a failed connect of the TLS socket every further connect fails until close is called the socket stays open, so the next connect ends with already connect
* `C81_copy_finding`: a copied Hash object frees its context twice the class has a destructor that frees ctx_ and the implicit copy constructor
* `C81_ctor_leak_finding`: the constructor of Hash leaks its context if the digest is not available EVP_MD_CTX_new has succeeded, setCTX throws, the destructor does not run
* `C81_hmac_key_finding`: Hmac ignores all of a key of 2^32 + k bytes but the first k the length is cast to int
* `C81_iv_finding`: Cipher::setup does not check the length of iv in the CBC modes EVP_CipherInit_ex reads 16 bytes at iv.c_str(): beyond the string for the default (empty) iv; one of 15 bytes stands for the one followed by 0, and the rest of a longer one is ignored
* `C81_null_ctx_finding`: Hash uses a null context if EVP_MD_CTX_new fails the result is not checked
* `C82_copy_finding`: an AutoLock can be copied; the second destructor unlocks a mutex the thread does not hold mutex.hpp:92-107 declares a private operator= but no copy constructor
* `C82_nested_finding`: a second AutoLock on the same mutex in a nested scope does not return on POSIX (on Windows both kinds of mutex can be locked again by their owner)
* `C83_seed_finding`: the seed of NormalRandomGenerator is used as the lower bound of its uniform generator, which is always seeded with 0; with seed 1 every value of the standard normal generator is 6
* `C83_upper_finding`: the upper bound of the documented half-open interval can be returned for a = 1, b = 2 and all bits set the last addition rounds 2 - 2^-53 to 2
* `C84_late_item_finding`: in the one-line form an item appended after the message was asked for is glued to the last address of the trace (exception.hpp:142-143, 158), so that address is no longer a hexadecimal number for a reader of the trace.
* `C84_nul_finding`: a NUL inside the name hides the whole rest of the message, and a NUL inside an item drops the rest of that item (exception.hpp:135, 164). Two different messages then read the same.
* `C84_wide_finding`: the wide-string form is not injective: a text that already holds a backslash escape reads like the character itself (exception.hpp:75-80 escapes no backslash).
* `C85_dropped_finding`: in a one-line trace everything from the first word that is not an address is silently dropped (desymbol.cpp:53, 56); with an item appended after the message was asked for (C84_late_item_finding) that is the last address and the item.
* `C85_first_bracket_finding`: only the first "[0x" of a line is looked at (desymbol.cpp:23-29), so a bracket that is not an address hides the address that follows it.
* `C85_nul_finding`: a line is cut at a NUL byte when it is written (desymbol.cpp:123).
* `C85_top_section_finding`: a section that ends at the top of the address space is never found, because vma + size wraps to 0 (bfd.hpp:95).
* `C86_long_value_finding`: on Windows a variable whose value needs 4096 bytes or more is treated as if it were not set (env.hpp:17-25): the default is returned, or an exception says that there is none.
* `C86_nul_key_finding`: a key with a NUL in it reads the variable named by the part before the NUL (env.hpp:27).
* `C87_destroyed_finding`: the handler is never uninstalled (there is no destructor, and on POSIX ctrlHandler does not check app_): a signal after the App object is gone calls quit on a dead object (quit_signal_handler.hpp:36).
* `C87_second_finding`: app_ is one static member per App type: a second handler silently takes the signals away from the first application.
* `C88_late_finding`: a user (or item) added after startLearning makes the next step write past the end of the learned vectors
* `C88_no_data_finding`: step without any observation divides 0 by 0, so p(z) is no longer a number
* `C88_repeat_finding`: an item with a second data line throws if one of its users is not newer than those of the first
* `C88_restart_finding`: startLearning called a second time appends to p(z) only, so the next step reads and writes the other vectors past their end
* `C88_unknown_finding`: asking for a user (or an item) that is not in the data adds it to the tables of ids and then reads the learned vectors past their end
* `C90_compress_finding`: for larger matrices the bound of a group overflows int, although every index is small
* `C90_unit_finding`: for larger matrices the index computation i * col overflows int, although every index is small
* `C91_tall_finding`: 
* `C92_blank_finding`: a file whose first line is blank makes LoadHeader compare a char that was never read
* `C92_lost_finding`: an entry that cannot be read ends a sparse row silently: the rest of the row is lost and loading succeeds
* `C92_nan_finding`: a number whose text does not read as a number (nan, inf) is saved, and the file cannot be loaded
* `C92_order_finding`: LoadSparseMatrix inserts the columns of a row in file order, which Eigen only allows when they increase; LoadMatrix accepts any order
* `C92_shape_finding`: the lines of a dense file need not be its rows, and what follows the last number is ignored
* `C92_sparse_vector_finding`: LoadVector ignores the sparse mark and reads the index of a sparse entry as the value
* `C93_copy_finding`: an object can be copied although it owns its tagger; the second destructor deletes the tagger again
* `C93_newline_finding`: a newline inside a field stays in the word although leading ones are removed
* `C93_parse_finding`: parse between set and the loop leaves the object at nodes that are gone
* `C93_short_finding`: 
* `C93_zero_finding`: a length of 0 is not an empty text: the bytes up to a NUL are analysed, and without one the read leaves the buffer
* `C94_alpha_finding`: [[:alpha:]] means alphanumeric, so it accepts digits, and [[:alnum:]] is not a class
* `C94_in_finding`: with reversed bounds every c but those strictly between them is inside
* `C94_narrow_finding`: the chars 0x80 to 0xFE, negative in a signed char, do not survive widen and narrow
* `C94_nul_finding`: a pattern String with a NUL is cut there, the other forms take all of it
* `C94_range_finding`: is over a range calls every other character, such as a hiragana, a control character; the single form does not
* `C95_alias_finding`: formatting a string into itself works with vasprintf and is undefined with MSVC
* `C95_clobber_finding`: when the second formatting of the MSVC form fails the string has lost its contents
* `C95_va_end_finding`: when vformat throws va_end is not called
* `C96_name_finding`: opening an object that is open throws and keeps its file, but later messages name the other file
* `C96_nul_finding`: a name with a NUL opens, and here empties, the file with the shorter name
* `C97_append_finding`: the constructor with ios::app of a file that has no size or position (a FIFO) throws and leaves a descriptor open that no object has
* `C97_sync_finding`: the destructor of an object open for writing does not close the descriptor when fdatasync fails (as it does on a pipe)
* `C98_accept_leak_finding`: accept into an object that has a descriptor leaves that descriptor open without an owner
* `C98_bind_leak_finding`: bind of an object that has a descriptor takes a new one and leaves the old one open without an owner
* `C98_epoll_finding`: with epoll, queryAcceptNoThrow throws when the descriptor cannot be watched, waits for ever for the time 0 (select polls), and evaluates a member of a null pointer when it stops watching
* `C98_linger_finding`: setLinger sets the option from the address of a local variable; the two arguments are ignored, and linger is on unless the low half of the address is 0
* `C98_longest_finding`: at 250 Hz the longest timeout reads back negative
* `C98_negative_finding`: a negative time of whole seconds is accepted, reads back as 0 (no timeout) and elapses at once
* `C98_retry_finding`: after a connect that failed at the connection the object keeps its descriptor, so that connecting again throws until it is closed
* `C99_leak_finding`: with IPv6 forced, the IPv4 list of a name that has one is never freed
* `C99_nul_finding`: a name is resolved up to its first NUL
* `C100_backslash_finding`: a backslash at the end is removed too, though it is part of a name on POSIX, so RenameFile overwrites an existing file of such a name
* `C100_dangling_finding`: stat follows links, so a symbolic link to nothing does not exist for RenameFile and is overwritten
* `C100_race_finding`: RenameFile tests and then renames: a file that another process creates in between is overwritten, and RenameFile succeeds
* `C100_root_finding`: DoesFileExist("/") is false: the slash is removed and stat("") fails
* `C100_slash_finding`: DoesFileExist("a/") is true for a regular file a, where every system call on "a/" fails with ENOTDIR
* `C101_error_finding`: readdir also returns 0 for an error; GetFileList does not look at errno, returns true, and the rest of the directory is missing
* `C101_exe_finding`: a longer path is cut without notice: the directory returned is another one
* `C102_clear_finding`: at the end of the stream operator>> clears the string, where operator>> of std::string leaves it as it was: the last word is lost after while (is >> s)
* `C102_delim_finding`: the delimiter is a char: a byte of 128 or more cuts characters in two, and both parts throw
* `C104_destroy_finding`: if pthread_attr_destroy fails, Begin answers false although the thread runs and hdl is set (thread.hpp:127-130): a caller who believes the answer forgets a running thread
* `C104_negative_finding`: a negative stackSize is passed on as a size near 2^64 (thread.hpp:120), which the system may accept as an attribute
* `C106_copy_finding`: Option can be copied, but copying one without appendParamVec dereferences a null pointer (option.hpp:257)
* `C106_copy_forgets_finding`: a copy forgets which variables were set: isSet answers false for all of them
* `C106_grow_finding`: a declaration after parse may forget which options were set: the vector grows and the copies are not set (option.hpp:257, 362)
* `C106_twice_finding`: a second parse with the same object refuses the parameters: they count as set from the first
* `C106_vec8_finding`: a vector of int8_t or uint8_t is printed as characters (option.hpp:243 does not use convertToStr): 10 is a line feed, and what is printed is not what -v reads
* `C107_empty_finding`: with an empty table of codes getTopEncoding dereferences begin() of an empty map (csucvector.hpp:158)
* `C107_wrap_finding`: the counters are uint32_t: after 2^32 repetitions of a pair its counter is 0 and it is no longer the top
* `C108_constructor_finding`: the constructor MiniXml(begin, end) leaks the nodes made so far if the text starts with <?xml and is not a document: it throws, so the destructor does not run (minixml.hpp:419-423)
* `C108_copy_finding`: Node can be copied (Node n = xml.get();) and the copy deletes the same children: every node below the root is deleted twice
* `C108_reparse_finding`: MiniXml::parse (minixml.hpp:409) overwrites root_ without deleting it: a second parse leaks the whole first tree
* `C109_again_finding`: a second digest without clear fails inside OpenSSL, and the object reports success: the string form returns zeros, the buffer form returns the size and leaves the buffer as it was
* `C109_copy_finding`: on EVP_MD_CTX a copied Sha256 shares the context of the original, so that bytes given to the copy enter the digest of the original and destroying both frees the context twice; in the other builds a copy is independent
* `C110_lost_finding`: a failure when the destructor empties the buffer is not reported: every call returned, the file lacks its data; and a writer that could not open its file says so only when a row is written
* `C110_missing_finding`: a file that does not exist, or may not be read, is read as an empty file: CsvReader throws nothing and reports the end
* `C110_separator_finding`: CsvWriter empties the file before it looks at the separator: a refused separator costs the old contents
* `C111_later_finding`: the result of getValue keeps a reference to the key: kept in a variable and converted later, a bad value makes the message of the exception read a string that is gone
* `C111_space_finding`: a space behind the equal sign belongs to the value: "port = 80" is loaded, and its number cannot be read by any type
* `C112_recover_finding`: recover does not look at the stream it writes to: with an output that cannot be opened "-r" prints nothing, writes nothing and ends with status 0
* `C113_race_finding`: begin() of a const vector with CompressedPositionTbl appends a byte and sets a flag (sparse.hpp:89-92). If two threads take their first begin() at the same time, both see the flag unset and the byte is appended twice. Even if these are single steps (they are not: it is a data race on a std::vector), a position pushed later is then stored wrongly: 9 is read back as 5.
* `C114_ten_finding`: zlib_smpl -d cannot read back what zlib_smpl wrote of a file that compresses by more than ten The buffer of -d has ten times the size of the stream. zlib reaches a thousand, so a file of zeros is compressed with status 0, and -d of the result is an exception, status 1. Below with a coder that makes one byte of a hundred.
* `C114_ulong_finding`: where uLong has 32 bits, ZlibCompress drops 4 GiB without an error inSize is cast to uLong, which has 32 bits on 64-bit Windows. Of first ++ rest, rest of 2^32 bytes, only first is compressed; the call returns a length as if all were well, and what is uncompressed is first.
* `C114_unopened_finding`: zlib_smpl does not look whether the output file was opened The stream is written to an ofstream without a check, so with an output file that cannot be opened the command ends with status 0 and has written nothing.
* `C116_name_finding`: option2_smpl takes its own name for the command if there are no arguments Without a delimiter the position is argc, and argv[argc - 1] is looked at; with no arguments that is the name of the program. A program installed as "run" and started without a command puts the settings of run in place of the usage message.
* `C117_hidden_finding`: after setUsage(text) the help message lists no option showOptUsage is true in a new Option, but setUsage(usage) resets it unless it is given: -h then prints the description and that text only.
* `C117_nameless_finding`: the message for an unknown option does not say which one Every other message names the option, the parameter or the value; "OptionError:bad opt" is printed for every unknown option, however many arguments there are.
* `C118_zero_finding`: select with r = 0 is 0 for even words and 64 for odd ones Both the table and its generator compare the count with r after looking at a bit. There is no 0-th set bit; the answers depend on bit 0 alone and are not told apart from an answer for r = 1.
* `C119_last_finding`: "-r" at the end of the command line is taken for a file name The test for a rank needs an argument behind "-r". `svd_smpl a.txt -r` does not show the usage: it writes "-r.U", "-r.S" and "-r.V", and `svd_smpl -r` tries to read a matrix from a file named "-r".
* `C119_rank_finding`: with a rank that is not positive svd_smpl writes files no loader accepts ComputeSVD returns false and leaves the factors empty; they are saved as matrices of 0 rows, which LoadMatrix and LoadVector reject. Old results are lost.
* `C119_status_finding`: svd_smpl ends with status 0 whatever happens after the arguments were read main ignores the result of Run, and Run ignores those of ComputeSVD, SaveMatrix and SaveVector. A missing or malformed input, a rank that is not positive and outputs that cannot be written all end with status 0.
* `C121_hole_finding`: when write throws because the stream refused a block, the destructor still appends the rest and the trailer if the stream takes them (a MemoryOutputStream takes a small block after it refused a large one). The stream then holds a file that looks finished and has a hole; it is not a first part of the right file, and neither the destructor nor any later call reports it
* `C121_leak_finding`: with gzip, a constructor that throws while it writes the header leaves the deflate state allocated: the destructor does not run for an object that was never built, so deflateEnd is not called
* `C121_retry_finding`: a flush that threw is taken as done: calling flush again returns normally and writes nothing, and the destructor is silent
* `C121_silent_finding`: a program that leaves the flush to the destructor sees every call return although the file is cut: the failure only goes to stderr
* `C124_mode_finding`: sample/socket_smpl.cpp looks at the mode before it parses the arguments. The help says that -m 0 means both families, but the server then listens on IPv4 only; -m 4 and -m 6 work because their bits happen to be right; any other number is taken, too.
* `C124_one_client_finding`: one client ends the server of socket_smpl. If a client resets its connection, or sends nothing within the time given with -t (5 seconds), readSome throws, nothing catches it in the loop, and the clients that come later are not served.
* `C124_timeout_finding`: socket_smpl -t n multiplies n by 1000 in an int: from 2147484 seconds on the behaviour is undefined.
* `C125_msec_finding`: setTime and the constructor take any number of milliseconds, and with 1000 or more a Time is before times that precede it
* `C125_uninitialised_finding`: Time(false) leaves the time uninitialised; reading it is undefined
* `C126_before_block_finding`: CYBOZU_ALIGNED_ALLOCA rounds the address down, not up. For every alignment above 16 and every size there is an address of alloca for which the returned memory starts before the allocated block, on the part of the stack that other data uses
* `C127_nul_finding`: ssl_smpl prints each piece only up to a NUL, so that what is printed of a binary page depends on how it was cut in pieces; total counts all
* `C127_total_finding`: the total of ssl_smpl is printed as an int: for a page of 2 to the 31st bytes it is negative
* `C128_vector_finding`: VecInputStream of sample/serializer_smpl.cpp, shown as the way to make an input stream, is undefined at its end: data[pos] is evaluated with pos == data.size() even if nothing is to be read. A load from a vector whose last bytes are missing is undefined, where MemoryInputStream makes it throw.
* `C129_wrap_finding`: Naive::select of wm_bench_smpl with n = NotFound adds 1 to it, gets 0 and finds the value in the first place if another value is there; WaveletMatrix says NotFound
* `C130_silent_finding`: mecab_smpl ends with status 0 and says nothing when the analyser fails on the file

Seen while reading and not stated as theorems (outside the modelled state, or prose only):

* `IsSpace(Char)` overflows for `c < INT_MIN+9`; `CaseFind` forms pointers past the end.
* `BitVectorT::append` of a vector to itself aliases; `&v_[0]` is taken of empty vectors.
* `select64(v, 0)` is meaningless; a wavelet matrix of exactly 2^32 elements is accepted but its 32-bit tables truncate.
* The SHA-512 length field has only 64 bits.
* `MiniXml`: a second `parse()` or a throwing constructor leaks the tree; attributes of `<?xml` merge; `operator<<` on an unparsed object dereferences null.
* `loadPodVec` multiplies the length of a corrupt stream without an overflow check.
* `CompressedPositionTbl` iterators use a 32-bit byte offset and are invalidated by a push after `begin()`.
* `Frequency::load` does not clear the table; `FMindexT::load` sets `charNum_` one too low; a key whose `value_type` is wider than the index type is truncated; texts of 2^31-1 elements or more throw through an `(int)` cast.
* A failing `pthread_create` leaves the handle undefined and the destructor joins it; non-`std` exceptions in `parallel_for` terminate.
* `accept` with an address calls `verify()` before checking the socket; a failing `connect` leaves the socket open.
* `Df::term` called twice accumulates.
