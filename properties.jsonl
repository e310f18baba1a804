{"id": "C01", "title": "Decimal print/parse round trip", "statement": "For every integer type the library supports, parsing (atoi) the text produced by itoa for a value gives back exactly that value and reports success.", "quantifier": "every integer type (signed/unsigned, 8..64 bit) and every value of it", "why_tests_cant": "2^64 values times eight types; the minimum value and buffer edges are special-cased in the code", "anchors": ["include/cybozu/itoa.hpp: itoa, convertFromUint, convertFromInt, uintToDec, intToDec", "include/cybozu/atoi.hpp: atoi, convertToInt, convertToUint"]}
{"id": "C02", "title": "Decimal parse is exact and overflow safe", "statement": "atoi into an unsigned type succeeds exactly when the (NUL-terminated or sized) text is a nonempty run of decimal digits whose value fits the type, and then returns that value; into a signed type the same holds with an optional leading minus sign, except for one documented deviation: a text whose magnitude merely starts with the digits of the minimum's magnitude is accepted as the minimum.", "quantifier": "every byte string, every explicit size or NUL-terminated mode, every integer type", "why_tests_cant": "the accepted language is infinite and overflow happens at 20-digit lengths; tests sample a few strings", "anchors": ["include/cybozu/atoi.hpp: convertToInt, convertToUint"]}
{"id": "C03", "title": "Hexadecimal print/parse", "statement": "hextoi accepts exactly nonempty runs of hex digits of either case whose value fits the type and returns the value; hextoi(itohex(x)) = x, and itohex gives exactly 2*sizeof(T) digits; itobin likewise gives the 8*sizeof(T) binary digits of x.", "quantifier": "every unsigned type, every value, every string", "why_tests_cant": "infinite language, 2^64 values", "anchors": ["include/cybozu/atoi.hpp: convertHexToInt, hextoi", "include/cybozu/itoa.hpp: itohex, itobin, uintToHex, uintToBin"]}
{"id": "C04", "title": "Decimal/hex/binary conversion into a caller buffer", "statement": "Conversion into a caller-supplied buffer either returns 0 exactly when the text does not fit, or returns the exact length and leaves the canonical text (no leading zero, correct digits) right-aligned in the buffer; bytes before the text are untouched and nothing outside the buffer is written.", "quantifier": "every value, every buffer size including 0", "why_tests_cant": "boundary between too small and exactly fitting must hold for every value", "anchors": ["include/cybozu/itoa.hpp: itoa_local::uintToDec, intToDec, uintToHex, uintToBin, itoaWithZero"]}
{"id": "C05", "title": "Base64 round trip", "statement": "Decoding what the Base64 encoder wrote gives back the original bytes, for every end-of-line mode and maximum line length the encoder accepts, and however the input arrived in pieces.", "quantifier": "every byte string, every valid maxLineSize/mode, every splitting of the input into reads on both sides", "why_tests_cant": "line wrapping, 3-byte grouping and read chunking interact; the product space is infinite", "anchors": ["include/cybozu/base64.hpp: EncodeToBase64, Base64Decoder, EncodeToBase64, DecodeFromBase64"]}
{"id": "C06", "title": "Base64 output format", "statement": "Encoder output without line breaks is exactly the RFC 4648 encoding of the input; with line breaks it is that encoding cut into lines of exactly maxLineSize characters (the last possibly shorter), each followed by the requested line end; the internal output buffer is never overrun.", "quantifier": "every byte string, every valid maxLineSize/mode, every chunking", "why_tests_cant": "a wrong pad/line boundary shows up only for particular lengths modulo 3 and the line size", "anchors": ["include/cybozu/base64.hpp: EncodeToBase64::encode, putBuf, write"]}
{"id": "C07", "title": "Base64 decoder is insensitive to chunking and foreign characters", "statement": "The decoder's output depends only on the sequence of Base64 alphabet characters in its input: characters outside the alphabet and the way the input is cut into reads do not matter; its output buffer is never overrun.", "quantifier": "every byte string, every chunking, every interleaving with foreign bytes", "why_tests_cant": "infinitely many chunkings and insertions", "anchors": ["include/cybozu/base64.hpp: Base64Decoder"]}
{"id": "C08", "title": "Endian accessors", "statement": "GetXXbitAsLE/BE read the little/big-endian number in the given bytes, SetXXbitAsLE/BE write the bytes whose little/big-endian value is the number, so Get after Set is the identity and exactly 2/4/8 bytes change; the byte-swapping build and the portable build agree; byteSwap is an involution that reverses bytes.", "quantifier": "every 16/32/64-bit value and every byte buffer, both host byte orders", "why_tests_cant": "2^64 values, and the branch not compiled on the test machine is never executed", "anchors": ["include/cybozu/endian.hpp: byteSwap, Get16bitAsLE..Set64bitAsBE"]}
{"id": "C09", "title": "Variable-length integer serialization", "statement": "Saving any int/unsigned/long/unsigned long/long long/unsigned long long and loading it back as the same type yields the same value and consumes exactly the bytes written, whatever follows; a truncated encoding makes load throw. Loading at a wider unsigned type than was saved is not value preserving.", "quantifier": "every integer type on LP64 and ILP32/LLP64, every value, every following data, every truncation point", "why_tests_cant": "2^64 values and ten encodings with overlapping recover tests", "anchors": ["include/cybozu/serializer.hpp: saveVariableInt, loadVariableInt, isRecoverable, loadPod, savePod"]}
{"id": "C10", "title": "Container serialization round trip", "statement": "Saving strings, vectors, lists, maps and sets of serializable values, nested to any depth and in any sequence, and loading them in the same order into empty objects gives equal objects and leaves the rest of the stream untouched; loading into a nonempty vector or list replaces it, while loading into a nonempty map or set merges, keeping old map values; a stream that ends anywhere inside the saved bytes makes load throw. A C string is saved as the std::string of its characters.", "quantifier": "every value of every container type over any element type with a round trip, every stream tail", "why_tests_cant": "unbounded sizes and nesting", "anchors": ["include/cybozu/serializer.hpp: save, load, saveRange, loadRange-like overloads, loadPodVec, savePodVec"]}
{"id": "C11", "title": "Exact reads over short-reading streams", "statement": "cybozu::read(buf,n,is) delivers exactly the next n bytes, or throws, no matter how many bytes each underlying readSome call returns, and throws exactly when the stream ends before n bytes.", "quantifier": "every request size, every stream content, every schedule of short reads", "why_tests_cant": "the number of read schedules is exponential; tests use one file or memory stream", "anchors": ["include/cybozu/stream.hpp: read, readChar, readSome"]}
{"id": "C12", "title": "Memory and string streams", "statement": "Reading from a memory/string input stream in any sequence of calls yields the content in order without loss, duplication or reading past the end; a memory output stream holds exactly the concatenation of the successful writes, never exceeds its capacity, and a write that does not fit throws and changes nothing.", "quantifier": "every content, capacity and history of read/write calls", "why_tests_cant": "histories are unbounded", "anchors": ["include/cybozu/stream.hpp: MemoryInputStream, MemoryOutputStream, StringInputStream, StringOutputStream"]}
{"id": "C13", "title": "CSV write/read round trip", "statement": "Rows written by CsvWriter and read back by CsvReader are the same rows, for fields with any commas, double quotes and line feeds, however the file data arrives in pieces, provided fields contain no CR and no 0xFF byte and the whole file is at most the size limit.", "quantifier": "every list of rows of every number of fields, every chunking", "why_tests_cant": "quoting automaton has interacting states; quote runs of every length matter", "anchors": ["include/cybozu/csv.hpp: CsvReader::read, CsvWriter::append, CsvWriter::write"]}
{"id": "C14", "title": "CSV reader limits and end-of-file behaviour", "statement": "The CSV reader's result depends only on the byte sequence, it stops with an exception or a row after consuming finitely many bytes, and its size limit is cumulative over the whole file rather than per line; a final row without line end whose last field is empty is reported as end of file; a 0xFF byte is taken for end of file.", "quantifier": "every byte sequence and chunking", "why_tests_cant": "each deviation is one path through the automaton at a special position", "anchors": ["include/cybozu/csv.hpp: CsvReader::read, my_getchar"]}
{"id": "C15", "title": "Line reader equals splitting at LF", "statement": "LineStream::next returns, one by one, exactly the lines of the data (separated by LF, a CR before the LF removed, a final line without LF returned as is, no phantom last line), independently of how the reader delivers the data, when every line is at most maxLineSize (>= 2).", "quantifier": "every data, every schedule of short reads, every maxLineSize", "why_tests_cant": "the buffer-compaction path depends on where each read ends relative to line ends", "anchors": ["include/cybozu/line_stream.hpp: LineStreamT::next, getRemain"]}
{"id": "C16", "title": "Line reader bound", "statement": "LineStream never buffers more than 2*maxLineSize bytes, never returns a line longer than maxLineSize, throws on the first overlong line, and never fails on a line within the limit when maxLineSize >= 2 (for maxLineSize = 1 a one-character CRLF line is wrongly rejected).", "quantifier": "every data, schedule and limit", "why_tests_cant": "overflow depends on read boundaries", "anchors": ["include/cybozu/line_stream.hpp: LineStreamT::next, verifySize"]}
{"id": "C17", "title": "UTF-8 decoding accepts exactly well-formed UTF-8", "statement": "Decoding one character succeeds exactly on the well-formed byte sequences of the Unicode standard (no overlong forms, surrogates or values above 10FFFF), returns the right scalar value, consumes exactly its bytes, and never reads past the end; every failed decode still consumes at least one byte.", "quantifier": "every byte string", "why_tests_cant": "2^32 lead/trail combinations and truncations", "anchors": ["include/cybozu/string.hpp: string::GetCharFromUtf8, Utf8ref"]}
{"id": "C18", "title": "UTF-8 encode/decode round trip", "statement": "Appending the UTF-8 form of a valid character and decoding it gives the character back; a whole String converted to UTF-8 and back is the same String; GetUtf8Length-style sizes agree with the bytes written; invalid code points are refused (for nonnegative values).", "quantifier": "every Unicode scalar value, every string of them", "why_tests_cant": "1.1 million characters, unbounded strings", "anchors": ["include/cybozu/string.hpp: AppendUtf8, toUtf8, GetCharSize, StringT conversions"]}
{"id": "C19", "title": "UTF-16/UTF-8 conversion", "statement": "ConvertUtf8ToUtf16 and ConvertUtf16ToUtf8 are mutually inverse on well-formed input, and ConvertUtf16ToUtf8 fails on any unpaired surrogate.", "quantifier": "every well-formed UTF-8/UTF-16 string; every ill-formed UTF-16 string", "why_tests_cant": "surrogate pairing depends on context; unbounded strings", "anchors": ["include/cybozu/string.hpp: ConvertUtf8ToUtf16, ConvertUtf16ToUtf8, GetCharFromUtf16, AppendUtf16"]}
{"id": "C20", "title": "Split is the inverse of join", "statement": "Split(in, sep, maxNum) yields pieces whose join with sep is the input; at most maxNum pieces (when maxNum > 0), and every piece but possibly the last (when the limit is hit) contains no separator.", "quantifier": "every string, separator and limit", "why_tests_cant": "unbounded strings, limit boundary", "anchors": ["include/cybozu/string_operation.hpp: Split"]}
{"id": "C21", "title": "Trim removes exactly the surrounding spaces", "statement": "Trim/TrimCopy returns the unique substring obtained by deleting all leading and all trailing space characters (predicate-defined): it neither starts nor ends with a space and only spaces were removed; trimming twice equals trimming once; all-space and empty inputs give empty.", "quantifier": "every string and predicate", "why_tests_cant": "all lengths and all-space edge case", "anchors": ["include/cybozu/string_operation.hpp: Trim, TrimCopy, Strip, IsSpace"]}
{"id": "C22", "title": "Case-insensitive comparison and search", "statement": "CaseCompare is a total preorder whose equivalence is equality up to ASCII case, consistent with CaseEqual; ToLower/ToUpper are idempotent; CaseFind returns the first position where the target matches up to case, or the end exactly if there is none.", "quantifier": "all pairs/triples of strings", "why_tests_cant": "ternary laws over infinite strings", "anchors": ["include/cybozu/string_operation.hpp: CaseCompare, CaseEqual, CaseEqualStartWith, CaseFind, ToLower, ToUpper"]}
{"id": "C23", "title": "BitVector behaves as a vector of bits", "statement": "After any sequence of resize, set, reset, append and get/extract, a BitVector shows exactly the bits of a plain list-of-booleans model put through the same operations; new bits are zero; operations out of range throw and change nothing.", "quantifier": "every history of operations, every block type", "why_tests_cant": "carry between words and the partial last word interact over histories", "anchors": ["include/cybozu/bitvector.hpp: BitVectorT"]}
{"id": "C24", "title": "BitVector equality and dirty padding", "statement": "Equality of BitVectors with zero padding compares stored blocks only: it holds whenever the bits agree, but also for some vectors of different length; initializing from blocks with bits beyond the length leaves them visible to later growth and append.", "quantifier": "every pair of vectors; concrete counterexamples", "why_tests_cant": "tests only compare equal-length vectors", "anchors": ["include/cybozu/bitvector.hpp: BitVectorT::operator==, init, append"]}
{"id": "C25", "title": "Bit copy and multi-word shifts", "statement": "CopyBit, ShiftLeftBit and ShiftRightBit compute, over multi-word little-endian numbers, exactly the copy/shift of the first bitLen bits by 0 <= shift < wordsize (with carry in and out).", "quantifier": "every word size, number of words, bit length and shift", "why_tests_cant": "every combination of length mod wordsize and shift", "anchors": ["include/cybozu/bitvector.hpp: CopyBit, ShiftLeftBit, ShiftRightBit"]}
{"id": "C26", "title": "SucVector rank and get", "statement": "rank1(pos)/rank0(pos)/rank(b,pos) count the set/clear bits before pos (clamped to the size) and get(pos) is the bit, for the bit string the vector was built from.", "quantifier": "every bit string up to the size limit and every position", "why_tests_cant": "two-level counters with 64/256-bit boundaries", "anchors": ["include/cybozu/sucvector.hpp: SucVectorT::rank1, rank0, get, init"]}
{"id": "C27", "title": "SucVector select", "statement": "select1(i)/select0(i) is the position of the i-th (from 0) 1/0 bit, found through the two-level index; it is inverse to rank; it returns NotFound when there is no such bit, except that padding zeros up to the 64-bit word end count as 0 bits.", "quantifier": "every bit string and index", "why_tests_cant": "binary search over sampled table; boundaries every 256 bits", "anchors": ["include/cybozu/sucvector.hpp: SucVectorT::select, select1, select0, selectSub"]}
{"id": "C28", "title": "64-bit select and popcount helpers", "statement": "select64/popcnt/bsf/bsr return the position of the r-th set bit, number of set bits, lowest and highest set bit.", "quantifier": "every 64-bit word and rank", "why_tests_cant": "2^64 x 64 inputs; table of 256x8 entries", "anchors": ["include/cybozu/select8.hpp: select8/select64 tables", "include/cybozu/bit_operation.hpp: popcnt, bsf, bsr", "include/cybozu/sucvector.hpp: select64"]}
{"id": "C29", "title": "SucVector save/load", "statement": "Loading a saved SucVector gives a vector answering every query identically.", "quantifier": "every vector", "why_tests_cant": "unbounded vectors", "anchors": ["include/cybozu/sucvector.hpp: save, load"]}
{"id": "C30", "title": "WaveletMatrix queries", "statement": "After construction from a sequence of w-bit values: get(i) is the i-th value, rank(v,pos) the number of v before pos, rankLt(v,pos) the number of smaller values before pos, select(v,i) the position of the i-th v or NotFound; size(v) the number of v.", "quantifier": "every sequence over every w-bit alphabet, every value, position and index", "why_tests_cant": "w layers of stable partition, unbounded sequences", "anchors": ["include/cybozu/wavelet_matrix.hpp: WaveletMatrixT::init, get, rank, rankLt, select, size"]}
{"id": "C31", "title": "FM-index search", "statement": "getRange(key) reports exactly the (nonempty) interval of suffixes starting with key and fails exactly when key does not occur; convertPosition maps every entry to a true text position where key occurs, listing every occurrence once; getPrevString reproduces the text before it.", "quantifier": "every text over up to 255 symbols, every key, every sampling rate", "why_tests_cant": "backward search correctness is a theorem about all texts", "anchors": ["include/cybozu/fmindex.hpp: FMindexT::init, getRange, convertPosition, getPrevString"]}
{"id": "C32", "title": "Compressed succinct vector", "statement": "CSucVector get(pos) and rank1(pos) equal the bit and the number of 1s before pos of the source bits.", "quantifier": "every bit string up to the limit and every position", "why_tests_cant": "greedy variable-length dictionary coding with block skip tables", "anchors": ["include/cybozu/csucvector.hpp: CSucVector"]}
{"id": "C33", "title": "SHA-1 equals FIPS 180-4", "statement": "Sha1 fed by any sequence of update calls and a final digest returns the FIPS 180-4 SHA-1 of the concatenation; digest also resets the object.", "quantifier": "every message below 2^61 bytes and every splitting into updates", "why_tests_cant": "block boundary and padding cases for every length; chunkings are exponential", "anchors": ["include/cybozu/sha1.hpp: Sha1"]}
{"id": "C34", "title": "SHA-256 equals FIPS 180-4", "statement": "Sha256 fed by any sequence of updates and a final digest returns the FIPS 180-4 SHA-256 of the concatenation.", "quantifier": "every message below 2^61 bytes and every splitting", "why_tests_cant": "as above; unrolled register renaming", "anchors": ["include/cybozu/sha2.hpp: sha2_local::Sha256, Sha256"]}
{"id": "C35", "title": "SHA-512 equals FIPS 180-4", "statement": "Sha512 fed by any sequence of updates and a final digest returns the FIPS 180-4 SHA-512 of the concatenation.", "quantifier": "every message below 2^61 bytes and every splitting", "why_tests_cant": "as above", "anchors": ["include/cybozu/sha2.hpp: sha2_local::Sha512, Sha512"]}
{"id": "C36", "title": "HMAC-SHA256 equals RFC 2104", "statement": "hmac256(key,msg) is the RFC 2104 HMAC with SHA-256, for keys shorter than, equal to and longer than a block.", "quantifier": "every key and message", "why_tests_cant": "key length classes and padding for all lengths", "anchors": ["include/cybozu/sha2.hpp: hmac256"]}
{"id": "C37", "title": "SipHash-2-4", "statement": "The siphash function equals the SipHash-2-4 specification for every key and message.", "quantifier": "every key and message", "why_tests_cant": "all lengths modulo 8, high-bit bytes", "anchors": ["include/cybozu/siphash.hpp: siphash24"]}
{"id": "C38", "title": "FNV hash chaining and sensitivity", "statement": "hash32 of a concatenation equals hashing the second part starting from the hash of the first unless that hash is zero; two equal-length inputs differing in a single element have different hash32/hash64.", "quantifier": "every pair of inputs and split", "why_tests_cant": "statement about all inputs", "anchors": ["include/cybozu/hash.hpp: hash32, hash64"]}
{"id": "C39", "title": "PRNG state never degenerates", "statement": "XorShift with any seed never reaches the all-zero state and its step is a bijection of the state; XorShift128Plus and Xoroshiro128Plus never reach zero from a nonzero seed; Pcg32's state step is a bijection; reading bytes equals reading consecutive words.", "quantifier": "every seed, every number of steps", "why_tests_cant": "2^128 states, unbounded steps", "anchors": ["include/cybozu/xorshift.hpp: XorShift, XorShift128Plus, Xoroshiro128Plus", "include/cybozu/pcg.hpp: Pcg32"]}
{"id": "C40", "title": "shuffle permutes", "statement": "shuffle(v, rg) leaves v a permutation of its initial content and never indexes outside it, whatever the random generator returns.", "quantifier": "every vector and every generator output sequence", "why_tests_cant": "all n! outcomes for every n", "anchors": ["include/cybozu/random_generator.hpp: shuffle"]}
{"id": "C41", "title": "AlignedArray behaves as an array", "statement": "After any history of resize (with or without clearing), clear, copy, move, swap and element writes, an AlignedArray's size and contents equal those of a plain list; grown elements read zero when clearing is requested.", "quantifier": "every history", "why_tests_cant": "stale capacity reuse is history dependent", "anchors": ["include/cybozu/array.hpp: AlignedArray"]}
{"id": "C42", "title": "Config round trip", "statement": "Loading the text written by Config::toString/save gives the same sections, keys and values, for every config whose names are valid and values contain no LF and do not end with CR; duplicate keys and malformed lines throw.", "quantifier": "every config, every text", "why_tests_cant": "unbounded maps and text", "anchors": ["include/cybozu/config.hpp: Config, Section"]}
{"id": "C43", "title": "Option integer suffixes", "statement": "Option values with k/m/g/K/M/G suffix or 0x prefix are set to value times factor exactly when the product fits the variable's type, else parsing fails.", "quantifier": "every string and integer type", "why_tests_cant": "overflow boundary for every factor/type", "anchors": ["include/cybozu/option.hpp: convertInt, convert"]}
{"id": "C44", "title": "Option command-line parsing", "statement": "Option::parse assigns every argument to exactly one option or positional parameter in order, fails for unknown options, missing values, missing mandatory options/parameters or surplus arguments, and stops at the delimiter leaving the remaining arguments to the caller.", "quantifier": "every option declaration list and every argument vector", "why_tests_cant": "argument vectors are unbounded sequences", "anchors": ["include/cybozu/option.hpp: Option::parse"]}
{"id": "C45", "title": "XML text escaping", "statement": "Unescaping an escaped text gives the original text, escaped text contains no raw special character, and unescape of unknown entities follows its stated rule.", "quantifier": "every string", "why_tests_cant": "all strings containing ampersands and entity-like text", "anchors": ["include/cybozu/minixml.hpp: escape, unescape"]}
{"id": "C46", "title": "XML parser builds the document tree", "statement": "Parsing the serialization of a well-formed element tree (attributes and nested elements) rebuilds that tree and consumes all input; the parser never reads outside the input.", "quantifier": "every tree, every input text", "why_tests_cant": "recursive grammar", "anchors": ["include/cybozu/minixml.hpp: MiniXml, xml_util"]}
{"id": "C47", "title": "Time text round trip", "statement": "Time::fromString(Time::toString(t)) = t (with and without milliseconds) for every time from 1970 up to the year limit, and accepted texts give the instant the Gregorian calendar says.", "quantifier": "every second in range and every millisecond", "why_tests_cant": "leap-year rules over 10^10 instants", "anchors": ["include/cybozu/time.hpp: Time::fromString, toString"]}
{"id": "C48", "title": "FILETIME conversion", "statement": "Converting a Time (not before 1970) to Windows FILETIME and back is the identity at millisecond resolution.", "quantifier": "every representable time", "why_tests_cant": "64-bit split across two words", "anchors": ["include/cybozu/time.hpp: getFILETIME, setByFILETIME"]}
{"id": "C49", "title": "Sparse vector storage", "statement": "A SparseVector's iteration yields exactly the (position,value) pairs pushed, in order, for strictly increasing positions with gaps below 2^30, and save/load preserves it; non-increasing positions and large gaps throw and change nothing.", "quantifier": "every increasing sequence", "why_tests_cant": "variable-length gap coding", "anchors": ["include/cybozu/nlp/sparse.hpp: CompressedPositionTbl, SparseVector"]}
{"id": "C50", "title": "Sparse intersection and union", "statement": "Intersection enumerates exactly the common positions of two sparse vectors with both values, Union exactly all positions with either or both, both in increasing order; the inner product is the sum over common positions.", "quantifier": "every pair of sparse vectors", "why_tests_cant": "merge loops over unbounded inputs", "anchors": ["include/cybozu/nlp/sparse.hpp: Intersection, Union, InnerProduct"]}
{"id": "C51", "title": "Top-N table", "statement": "After any sequence of adds, TopScore (maxSize >= 2) holds the maxSize best entries in nonincreasing score order, earlier entries first among equal scores; with maxSize 0 or 1, after setSize, or on add after getTable, it accesses memory out of range.", "quantifier": "every add history and maxSize", "why_tests_cant": "histories are unbounded; memory errors can pass tests silently", "anchors": ["include/cybozu/nlp/top_score.hpp: TopScore"]}
{"id": "C52", "title": "Frequency table", "statement": "Frequency counts every element exactly, getIndex/getElement are mutually inverse bijections between distinct elements and 0..size-1, ordered by nonincreasing frequency; save/load preserves the table.", "quantifier": "every sequence of elements", "why_tests_cant": "all multisets and tie patterns", "anchors": ["include/cybozu/frequency.hpp: Frequency, FrequencyVec"]}
{"id": "C53", "title": "parallel_for covers every index exactly once", "statement": "parallel_for runs the body on every index 0..n-1 exactly once across its threads for every n and thread count, under every interleaving, when no body stops or throws; thread indexes are below the thread count; an exception message is reported.", "quantifier": "every n, thread count, interleaving", "why_tests_cant": "schedules and division remainders are unbounded", "anchors": ["include/cybozu/parallel.hpp: parallel_for"]}
{"id": "C54", "title": "Event never loses a wakeup", "statement": "A wakeup issued before or after a thread starts waiting always lets some waiter proceed: no reachable state has a pending signal while all waiting threads sleep un-notified; the number of completed waits never exceeds the number of wakeups; with the condition-variable build consecutive wakeups may coalesce while the pipe build counts them.", "quantifier": "any number of threads and every interleaving including spurious wakeups", "why_tests_cant": "schedules are unbounded; lost wakeups are rare races", "anchors": ["include/cybozu/event.hpp: Event"]}
{"id": "C55", "title": "Handles are released at most once", "statement": "Concurrent close/destruction of a Socket and join/detach of a ThreadBase release the underlying handle exactly once in total whatever the interleaving, because ownership is taken by an atomic exchange.", "quantifier": "any number of threads and interleavings", "why_tests_cant": "double close is a race", "anchors": ["include/cybozu/socket.hpp: Socket::close, moveFrom", "include/cybozu/thread.hpp: ThreadBase::joinThread, detachThread", "include/cybozu/atomic.hpp: AtomicExchange"]}
{"id": "C56", "title": "File and Socket transfer loops", "statement": "File::write/Socket::write send exactly the given bytes once and in order despite short writes and EINTR; Socket::read delivers exactly n bytes or throws at end of stream; File::read delivers exactly n bytes but never returns if the file ends first.", "quantifier": "every buffer, every schedule of short transfers, interruptions and errors", "why_tests_cant": "schedules of kernel results cannot be enumerated", "anchors": ["include/cybozu/file.hpp: File::read, write, readSome", "include/cybozu/socket.hpp: Socket::read, write, readSome"]}
{"id": "C57", "title": "File name splitting", "statement": "GetBaseName(name,&suffix) splits at the last dot so that base + '.' + suffix rebuilds the name and the suffix has no dot; HasExtension(name, ext) holds exactly when ext is empty or name ends with '.'+ext and no out-of-range read happens.", "quantifier": "every name and extension", "why_tests_cant": "all strings", "anchors": ["include/cybozu/file.hpp: GetBaseName, HasExtension, ReplaceBackSlash"]}
{"id": "C58", "title": "Socket address comparison", "statement": "hasSameAddr is an equivalence relation on IPv4/IPv6 addresses, identifying an IPv4 address with its IPv4-mapped IPv6 form and nothing else.", "quantifier": "all triples of addresses", "why_tests_cant": "2^128 addresses", "anchors": ["include/cybozu/socket.hpp: SocketAddr::hasSameAddr"]}
{"id": "C59", "title": "Term and document counting", "statement": "TfIdf counts, for every document, how often each known keyword occurs ignoring case, and in how many documents it occurs; Df counts a word in the same document once per distinct spelling, so its document frequency can exceed the number of documents; TfIdf::term reads outside the document table when there are more words than documents.", "quantifier": "every corpus", "why_tests_cant": "all corpora; out-of-range read is silent", "anchors": ["include/cybozu/nlp/tfidf.hpp: Df, TfIdf"]}
{"id": "C60", "title": "Gzip framing", "statement": "The decompressor accepts the header the compressor writes and, for any legal combination of optional header fields, skips exactly the header; the trailer written is the CRC and length of the data written; the decompressor never verifies it.", "quantifier": "every header, every data and every chunking, for any deflate implementation", "why_tests_cant": "optional header fields combine; corruption cases", "anchors": ["include/cybozu/zlib.hpp: ZlibCompressorT, ZlibDecompressorT::readGzipHeader"]}
{"id": "C61", "title": "WaveletMatrix save/load", "statement": "Loading a saved wavelet matrix, into any object and from a stream delivering its bytes in any pieces, consumes exactly the saved bytes and gives a matrix answering every query (size, get, rank, rankLt, select) as the original does.", "quantifier": "every matrix init can build, every target object, every stream chunking and following data", "why_tests_cant": "unbounded matrices; every split of the stream into reads", "anchors": ["include/cybozu/wavelet_matrix.hpp: WaveletMatrixT::save, load"]}
{"id": "C62", "title": "Pcg32 has full period", "statement": "Calling get32 n times on a Pcg32 comes back to the starting state exactly when 2^64 divides n, and every 64-bit state is met within 2^64 calls, from every start.", "quantifier": "every start state, every number of calls", "why_tests_cant": "2^64 steps cannot be run", "anchors": ["include/cybozu/pcg.hpp: Pcg32::get32"]}
{"id": "C63", "title": "RandomGenerator::read fills the buffer or reports failure", "statement": "read(pb, buf, n) of less than 2^31 bytes never writes outside buf; it reports success exactly when the device delivered all bytes, and then buf holds them.", "quantifier": "every buffer, every amount delivered by the device", "why_tests_cant": "short device reads and sizes around 2^31 are not exercised by tests", "anchors": ["include/cybozu/random_generator.hpp: RandomGenerator::read"]}
{"id": "C64", "title": "saisxx builds the suffix array", "statement": "saisxx(T, SA, n, k) on a text of n symbols below k returns 0 and leaves in SA the positions 0..n-1 in strictly increasing order of their suffixes, whatever SA held before; it returns -2 only if an allocation failed and -1 (leaving SA alone) exactly for negative n or non-positive k; it never accesses memory outside T, SA and its own buckets.", "quantifier": "every text, every alphabet size, every initial content of SA, every pattern of allocation failures", "why_tests_cant": "induced sorting recurses on names of substrings and reuses SA as workspace; the order and the in-place moves must be right for every text", "anchors": ["include/sais.hxx: saisxx, suffixsort, induceSA, getCounts, getBuckets"]}
{"id": "C65", "title": "saisxx_bwt computes the Burrows-Wheeler transform, which determines the text", "statement": "saisxx_bwt(T, U, A, n, k) on a text of n symbols below k returns the row of the whole text among the sorted suffixes (the empty suffix being row 0) and stores in U, in row order, the symbol before each other suffix, whatever U and A held before; two texts with the same U and result are equal; it returns -2 only if an allocation failed, leaving U alone, and -1 exactly for negative n or non-positive k; it never accesses memory outside T, U, A and its own buckets.", "quantifier": "every text, every alphabet size, every initial content of U and A, every pattern of allocation failures", "why_tests_cant": "the induction overwrites each slot with a symbol, a complemented symbol or a position while the slot may still be needed; that the tags never collide must hold for every text", "anchors": ["include/sais.hxx: saisxx_bwt, computeBWT, suffixsort"]}
{"id": "C66", "title": "Starting a process: run/Start reports whether the program runs", "statement": "process::Start (Process::run) returns true exactly if the program runs in a child, and then the handle is its pid; otherwise it returns false and leaves the handle alone; it always returns. This holds as long as the child can still write to the reporting pipe when execv fails: the loop that closes descriptors stops below it, it is not one of the standard descriptors being replaced, and no signal disturbs the read.", "quantifier": "every descriptor table of the caller, every combination of failing system calls, every program and argument list", "why_tests_cant": "which of nine system calls fails, and which numbers the pipe gets, depends on the system; tests see one combination", "anchors": ["include/cybozu/process.hpp: process::Start, Pipe, toDevNull"]}
{"id": "C67", "title": "Starting a process: descriptors and arguments", "statement": "After Start the caller has exactly the descriptors it had before, whatever failed; the program started receives the arguments given (each up to its first NUL), the null device on 0, 1 and 2 if closeStdio (and these are open in the caller), no descriptor from 3 to the limit, and otherwise the inherited ones.", "quantifier": "every descriptor table, every combination of failing system calls, every argument list", "why_tests_cant": "descriptor leaks show only on error paths and in long-running programs", "anchors": ["include/cybozu/process.hpp: process::Start, Pipe::~Pipe, toDevNull, Process::run"]}
{"id": "C68", "title": "Process::isAlive and the ownership of children", "statement": "In every history of copies, assignments, runs, queries and child exits, isAlive is true exactly while the child runs, the first query after its end gives its exit code (-1 if killed) and later ones 0; no two Process objects hold the same child as long as the kernel does not use a pid twice.", "quantifier": "every history of operations on any number of objects, interleaved with the ends of the children", "why_tests_cant": "the order of queries, moves and exits is arbitrary", "anchors": ["include/cybozu/process.hpp: Process, process::IsAlive"]}
{"id": "C69", "title": "Starting a process on Windows: the command line carries the arguments", "statement": "The command line built by Start is split by the Windows rules into the program and exactly the arguments given, if no argument has a backslash before a quote or at its end and the program name no quote.", "quantifier": "every program name and every argument list", "why_tests_cant": "quoting bugs show only for particular combinations of quotes, backslashes and spaces", "anchors": ["include/cybozu/process.hpp: process::escape, process::Start (Windows branch)"]}
{"id": "C70", "title": "Log messages reach the current destination, and the logger owns its files", "statement": "In every history of log calls, changes of destination and priority, each message at or above the threshold is written once, in order, as one line to the current file and to syslog if that is on, and no other message is; the logger closes no file that the user passed, none of its own twice, writes to none it has closed, and if no fclose fails has closed all its files at exit.", "quantifier": "every sequence of calls and every result of fopen, fclose, fprintf, fflush and vasprintf", "why_tests_cant": "destinations change in any order and the calls into the C library may fail at any point", "anchors": ["include/cybozu/log.hpp: Logger, OpenLogFile, SetLogFILE, SetLogPriority, PutLog"]}
{"id": "C71", "title": "Condition variable (Windows branch): no notification is lost", "statement": "If notifyAll is called with the mutex held, then when it returns every thread that was waiting when it was called has been woken, and it does return; a thread that keeps waiting has seen every later notifyOne wake some thread; no thread is woken without a notification; wait returns with the mutex, which one thread has at a time.", "quantifier": "every number of threads, every program of lock/unlock/wait/notify calls, every interleaving", "why_tests_cant": "lost wakeups and deadlocks depend on the interleaving", "anchors": ["include/cybozu/condition_variable.hpp: ConditionVariable::wait, notifyOne, notifyAll (Windows branch)"]}
{"id": "C72", "title": "Thread local storage: each thread sees its own values", "statement": "In every history of calls by any threads on any Tls objects, get returns the value the same thread last stored with a successful set in the same object, or null; set reports whether it stored; no key outlives its object.", "quantifier": "every interleaving of constructions, sets, gets and destructions, every choice of keys by the system, every failure", "why_tests_cant": "keys are used again after an object is destroyed; interference shows only in particular interleavings", "anchors": ["include/cybozu/tls.hpp: Tls, tls::Init, tls::SetValue, tls::GetValue, tls::Term"]}
{"id": "C73", "title": "Mmap maps the whole file and loses no resource", "statement": "If the constructor returns, size() is the size of the file and get() the address of a mapping of the whole file; it throws exactly if a system call fails that it needs, and then nothing is left behind. After any history the process has, besides what it had before, exactly the mappings (and on Windows handles) of the objects that live; none is given back twice.", "quantifier": "every combination of failing system calls, every history of objects", "why_tests_cant": "leaks occur on error paths that tests do not reach", "anchors": ["include/cybozu/mmap.hpp: Mmap::Mmap, Mmap::subOpen, Mmap::~Mmap"]}
{"id": "C74", "title": "String members change exactly what they say", "statement": "In every state of all String objects, every call of append, assign, a constructor, insert, erase, replace, resize, pop_back, swap, substr or + gives its object the documented contents, made of the old contents and of the text of the argument (String, part of a String, characters, UTF-8 or UTF-16 text); all other objects keep theirs. Positions behind the end throw without a change; malformed UTF-8/UTF-16 throws after the characters before it.", "quantifier": "every state of the strings, every position and count of type size_t, every byte string and 16-bit string, the same object passed twice (except assigning an object to itself)", "why_tests_cant": "positions near the end and size_t wrap, aliasing and malformed text at any offset multiply; tests use a few", "anchors": ["include/cybozu/string.hpp: StringT::append, assign, operator=, operator+=, insert, erase, replace, resize, pop_back, swap, substr, operator+"]}
{"id": "C75", "title": "Comparing Strings is the dictionary order of the characters", "statement": "Every ==, !=, <, <=, >, >= between a String and a String, UTF-8 text or UTF-16 text, on either side, agrees with the dictionary order of the characters, a total order; it throws exactly if the other side is malformed. Comparing Strings and comparing their UTF-8 encodings byte by byte give the same order.", "quantifier": "every pair of texts, every operator, both sides", "why_tests_cant": "a statement about all pairs and triples of strings", "anchors": ["include/cybozu/string.hpp: StringT::compare, operator==, !=, <=, >=, <, >"]}
{"id": "C76", "title": "128-bit registers shift and rotate as numbers; bit scans find the extreme set bits", "statement": "Shifting a V128 by 0..63 bits gives the number divided by 2^n, or multiplied by 2^n modulo 2^128; rotating three registers by 0..16 bytes rotates the 384-bit number they form; swap128 exchanges two blocks even when they are one, copy128 copies; the portable 64-bit bit scans return the position of the lowest and highest set bit for every word except 0; makeBitMask64(x) has exactly the low x bits set for x below 64.", "quantifier": "every 128-bit value, every count of the given range, every 64-bit word", "why_tests_cant": "2^128 values times all counts; lane boundaries are the error-prone part", "anchors": ["include/cybozu/v128.hpp: V128::shrBit, V128::shlBit, rotrByte, rotlByte, swap128, copy128", "include/cybozu/bit_operation.hpp: bsf, bsr (portable branches), makeBitMask64"]}
{"id": "C77", "title": "The test runner reports exactly what the tests did", "statement": "The program's exit code is 0 if and only if the setup and teardown finish, no check fails and no test ends by an exception. Every registered test runs exactly once, in order of registration, whatever the other tests do; the printed totals are the true numbers of successful and failed checks and of exceptions. Each check macro records exactly one result: true exactly if the condition holds, the statement throws the named exception (with the given text in its message), or does not throw.", "quantifier": "every list of tests, every behaviour of each test (any state change, checks and exceptions), every setup and teardown, fewer than 2^31 checks and tests", "why_tests_cant": "tests of a test framework see a few programs; a runner that forgets a failure in a rare combination hides all other bugs", "anchors": ["include/cybozu/test.hpp: AutoRun::run, AutoRun::set, AutoRun::append, AutoRun::setup, AutoRun::getBaseName, isEqual, CYBOZU_TEST_ASSERT, CYBOZU_TEST_EQUAL, CYBOZU_TEST_EQUAL_ARRAY, CYBOZU_TEST_EXCEPTION, CYBOZU_TEST_EXCEPTION_MESSAGE, CYBOZU_TEST_NO_EXCEPTION"]}
{"id": "C78", "title": "The benchmark clock adds up the measured intervals", "statement": "After any use and a clear, n pairs of begin and end leave the sum of the n intervals modulo 2^64 in the clock, also if the processor counter wraps, and n as the count. CYBOZU_BENCH calls the function loopN1 times per round and stops after the first round that brings the sum above 10^8, at most after 100 rounds, and never with a zero count.", "quantifier": "every sequence of counter readings, every function", "why_tests_cant": "the readings are different in every run", "anchors": ["include/cybozu/benchmark.hpp: CpuClock::begin, CpuClock::end, CpuClock::clear, CYBOZU_BENCH, CYBOZU_BENCH_T, CYBOZU_BENCH_C"]}
{"id": "C79", "title": "JSON values behave like values and own their memory", "statement": "A program that declares, copies, builds (from arrays and objects), assigns and swaps JSON values, at any depth, including assigning a value to a part of itself or a part of a value to the whole, and lets the values go out of scope, never uses freed memory or frees twice. Each variable always holds the tree it would hold if values were plain trees; changing one never changes another. If memory runs out in a statement, the statement throws and every value is as before. At every point exactly the memory owned by the living values is allocated; when all are gone nothing is.", "quantifier": "every program of such statements, every depth and size of values, every schedule of failing allocations", "why_tests_cant": "a double free or leak needs a particular combination of aliasing, nesting and failing allocation", "anchors": ["include/cybozu/json.hpp: Json::Value, Value::~Value, Value::swap, Value::operator=, Value::getArray, Value::getObject, Json::Array, Json::Object"]}
{"id": "C80", "title": "The TLS client socket delivers the byte stream unchanged and releases what it opened", "statement": "read fills the buffer with the next bytes of the connection, each once and in order, returns only when all have come and throws only on a real error; readSome returns at least one byte, or 0 when the peer has closed. write hands over exactly the given bytes in order, repeats an interrupted call with identical arguments as the TLS library requires, and returns when all are taken. Over the object's life every socket it opened is closed exactly once and the TLS object is freed exactly once, last, whatever connects and closes fail.", "quantifier": "every buffer and size, every schedule of partial transfers, WANT_READ/WANT_WRITE and errors of the TLS library, every sequence of connect and close with every outcome of the system calls", "why_tests_cant": "partial transfers and errors depend on the network and the peer", "anchors": ["include/cybozu/ssl.hpp: ClientSocket::ClientSocket, ClientSocket::connect, ClientSocket::readSome, ClientSocket::read, ClientSocket::write, ClientSocket::close, ClientSocket::~ClientSocket"]}
{"id": "C81", "title": "Digests, MACs and ciphers: each result is a function of the whole data, however it is fed", "statement": "However update, digest and reset are interleaved on a Hash, each digest is that of exactly the data since the last digest or reset, the one-shot functions give the digest of their argument, the context is released, and both builds (EVP and the older three-context union) agree. Names and digests correspond one to one. Hmac gives the MAC of the whole key and data. For a Cipher, how the input is cut into pieces does not change the output; decoding what was encoded gives the message back: of a whole number of blocks without padding, of any length with it (the code being the next multiple of 16); a call of update writes at most inBufSize + 16 bytes; setup accepts exactly keys of the length of the chosen cipher.", "quantifier": "every digest and cipher, every key, iv, message and every way of cutting it into pieces, every sequence of operations; the primitives are any functions with the sizes of the standard (and decryption inverse to encryption)", "why_tests_cant": "the ways of cutting data into pieces and of interleaving operations are unbounded", "anchors": ["include/cybozu/crypto.hpp: Hash::update, Hash::digest, Hash::reset, Hash::getName, Hash::getSize, Hmac::eval, Cipher::setup, Cipher::update, Cipher::finalize"]}
{"id": "C82", "title": "Scopes of AutoLock are atomic, and waiting on a condition variable misses no notification", "statement": "Threads that touch shared data only inside scopes holding the mutex through AutoLock (waiting in a loop for a condition on a ConditionVariable where they need one) never race; at most one is inside; an exception leaves the scope with the mutex released; and whenever nobody holds the mutex the data are those of executing the scopes one after the other, each whole, each with its condition true, in the order of every thread's program. If every scope calls notifyAll after its last change, then with the mutex free a thread sleeps only while its condition is false. As long as a thread is neither finished nor asleep, some such thread can go on.", "quantifier": "any number of threads with any programs of such scopes, any data and conditions, every interleaving of their steps including spurious wake-ups and every choice of the thread that notifyOne wakes", "why_tests_cant": "the interleavings are unbounded and a race or a lost wake-up shows in few of them", "anchors": ["include/cybozu/mutex.hpp: Mutex, thread::AutoLockT", "include/cybozu/critical_section.hpp: CriticalSection, AutoLockCs", "include/cybozu/condition_variable.hpp: ConditionVariable::wait, notifyOne, notifyAll (POSIX)", "include/cybozu/condition_variable_cs.hpp: ConditionVariableCs"]}
{"id": "C83", "title": "Random doubles lie in the interval asked for", "statement": "With the default bounds getDouble returns exactly the 53 random bits as a binary fraction, a multiple of 2^-53 in [0, 1). For any finite bounds a <= b whose difference does not overflow the value is finite and lies in [a, b], in spite of three roundings. The default normal generator returns values in [-6, 6].", "quantifier": "every pair of 32-bit words from the generator, every pair of finite doubles as bounds, every sequence of 24 words for the normal generator", "why_tests_cant": "2^64 word pairs for every pair of bounds; the rounding cases are rare", "anchors": ["include/cybozu/nlp/random.hpp: UniformRandomGenerator::getDouble, NormalRandomGenerator::get, NormalRandomGenerator::NormalRandomGenerator"]}
{"id": "C84", "title": "Exception messages, error texts and stack traces are complete and exact", "statement": "The message of an exception is its name followed by every appended item in order, each after a colon; a stack trace appears in it exactly once, where the message was first asked for, however often it is asked for. Asking for the message never throws, whatever allocation fails. An error-number text ends in the number in parentheses and the number can always be read back. A stack trace has one entry per captured frame in order, showing the exact address, or the symbol with its function name demangled and the rest unchanged.", "quantifier": "every name, every sequence of appends and reads, every pattern of allocation failures, every error number and system text, every list of frames and symbol texts, every build variant", "why_tests_cant": "the sequences of appends and reads and the symbol texts are unbounded; allocation failures are not reproducible in a test", "anchors": ["include/cybozu/exception.hpp: Exception, ErrorNo, ConvertErrorNoToString, exception::wstr2str", "include/cybozu/stacktrace.hpp: StackTrace, Demangle, stacktrace_local::addrToHex"]}
{"id": "C85", "title": "The trace reader recovers every address and changes nothing else", "statement": "Feeding a log to the desymbol program leaves all text outside stack traces unchanged (line ends become newlines). In a trace each line keeps its text and gets in front the file, line and demangled function of the address it shows, if known. A one-line trace becomes one line per address in order. An exception thrown with a stack trace and logged is read back with exactly the captured addresses. The lookup uses the first section that contains the address and has line information.", "quantifier": "every log text, every trace, every symbol table, every exception message", "why_tests_cant": "texts and symbol tables are unbounded", "anchors": ["sample/desymbol.cpp: findAddr, decode, tryDecodeOnelineAndPut, main", "include/cybozu/bfd.hpp: Bfd::getInfo, Bfd::findAddress"]}
{"id": "C86", "title": "Environment variables: a set one is returned, an unset one is reported", "statement": "If the variable is set its value is returned, even an empty one; otherwise GetEnv throws an exception that names the variable, the form with a default returns the default and QueryEnv leaves the caller's string alone.", "quantifier": "every environment and every variable name", "why_tests_cant": "environments are unbounded lists of arbitrary strings", "anchors": ["include/cybozu/env.hpp: QueryEnv, GetEnv"]}
{"id": "C87", "title": "Quit signals reach the application whenever they arrive", "statement": "Whenever signals arrive, even during construction of the handler, the handler never dereferences a null pointer and quit is never re-entered. Once the handler for an application is constructed each of SIGINT, SIGQUIT, SIGABRT and SIGTERM calls its quit exactly once and the process goes on; a signal that arrives while quit runs leads to another call afterwards.", "quantifier": "every interleaving of signals, handler returns and constructor steps, any number of handlers", "why_tests_cant": "signals arrive between any two instructions; a test cannot enumerate the interleavings", "anchors": ["include/cybozu/quit_signal_handler.hpp: QuitSignalHandler"]}
{"id": "C88", "title": "PLSI learning applies the EM formulas to exactly the loaded data and queries rank by the learned scores", "statement": "After loading lines of an item and its users, users and items are numbered in order of first appearance and the observations are exactly the pairs of the lines. startLearning gives uniform class and user distributions and normalised random item distributions. Each step returns the sum of the logarithms of the tempered weights of all observations and applies exactly the (tempered) EM update; search and similarity queries return the best-scored items by their stated formulas and change nothing; perplexity is the stated formula. No call of a session reads or writes out of bounds.", "quantifier": "every set of lines with one line per item, every number of classes, every sequence of steps, searches, similarity queries and perplexity calls, every scalar arithmetic", "why_tests_cant": "data, class counts and call histories are unbounded", "anchors": ["include/cybozu/nlp/plsi.hpp: Plsi", "sample/plsi_smpl.cpp"]}
{"id": "C89", "title": "PLSI keeps probability distributions and its likelihood never decreases", "statement": "In exact arithmetic, after any calls the class, user and item vectors are probability distributions (non-negative, each summing to one, classes positive). A step with beta 1 returns the log-likelihood of the data under the model it starts from, and the next such step, whatever queries lie between, never returns a smaller value.", "quantifier": "every set of lines with one line per item and at least one user, every positive number of classes, every positive random start, every history of calls", "why_tests_cant": "the claim is about real-valued optimisation over unbounded data; tests only sample it", "anchors": ["include/cybozu/nlp/plsi.hpp: Plsi::startLearning, Plsi::step"]}
{"id": "C90", "title": "The group matrices of svd partition rows and columns evenly", "statement": "InitUnitMatrix sets entry (i,j) of an n by g matrix to 1 exactly if i belongs to group j, where the g groups cut 0..n-1 into consecutive runs of n/g or n/g+1 indices in order, each index in exactly one group. CompressCol replaces the columns by the r sums over such groups of columns. No index leaves the matrix.", "quantifier": "every matrix size with at least as many rows (columns) as groups whose products fit in int, every entry type", "why_tests_cant": "sizes are unbounded and the grouping formula has boundary cases for every pair of sizes", "anchors": ["include/cybozu/nlp/svd.hpp: InitUnitMatrix, CompressCol"]}
{"id": "C91", "title": "Orthonormalisation is Gram-Schmidt and ComputeSVD returns the projection of the matrix it describes", "statement": "In exact arithmetic OrthonormalizeMatrix turns each column into the unit vector along what is left of it after removing its components along the earlier results, or into 0 if that is shorter than eps; the columns are orthogonal and every original column is within eps of their span. ComputeSVD gives non-negative decreasing singular values, U and V with orthonormal columns when the bases have full rank, and U S t(V) is the projection of the matrix on those bases; its squared distance to the matrix is at most what the rows lose by projection on the right basis plus rank eps^2. A matrix with at most as many rows as columns and as the rank is recovered up to 2 rows eps^2.", "quantifier": "every real matrix, every rank, every decomposition of the small square matrix", "why_tests_cant": "the claims are about all real matrices; tests only sample them", "anchors": ["include/cybozu/nlp/svd.hpp: OrthonormalizeMatrix, ComputeSVD"]}
{"id": "C92", "title": "Matrices and vectors saved by svd come back from the file, and no file makes the loaders leave a matrix", "statement": "SaveMatrix followed by LoadMatrix gives a matrix of the same size whose every entry is the value read from its text; SaveVector followed by LoadVector likewise; SaveSparseMatrix followed by LoadSparseMatrix gives the same stored entries, and followed by LoadMatrix the dense matrix with these entries and 0 elsewhere. For every file whose first line is not blank LoadMatrix and LoadVector end without leaving the matrix, with false or a result of positive size as the first line says; only '#' with M and D or S (LoadSparseMatrix: S, LoadVector: V) is accepted. When LoadSparseMatrix accepts a file its rows are sorted and in range and LoadMatrix gives the same matrix.", "quantifier": "every matrix, vector and sparse matrix of positive int size, every number format whose texts read back; every file content", "why_tests_cant": "sizes, values and file contents are unbounded", "anchors": ["include/cybozu/nlp/svd.hpp: LoadHeader, LoadMatrix, LoadSparseMatrix, LoadVector, SaveMatrix, SaveSparseMatrix, SaveVector"]}
{"id": "C93", "title": "The MeCab wrapper hands over exactly the given text, returns the words of the output and walks over the nodes before the end", "statement": "Mecab::parse appends the words of the analyser's output for the given bytes: the non-empty fields between spaces without leading white space. After set, isEnd, getPos, getSize and isNoun answer for the node reached by the next calls made since the last set; the loop until isEnd visits every node before the EOS node once and in order (the BOS node too). isNoun says that the node has at least two bytes and a feature starting with the Japanese word for noun, without reading past the feature. The constructor throws when there is no tagger and otherwise the tagger is deleted once.", "quantifier": "every analyser, every text and length, every history of parse, set and next", "why_tests_cant": "texts, analyses and histories are unbounded", "anchors": ["include/cybozu/nlp/mecab.hpp: Mecab, parse, set, isEnd, getPos, getSize, isNoun, next"]}
{"id": "C94", "title": "The character classes behind cybozu::regex are those of the C locale, and every overload runs the engine on exactly the given text and pattern", "statement": "ctype<Char>::is decides upper, lower, digit, punct, cntrl, xdigit, space, print, alpha, alnum and graph as the C locale does for every Char, without reading outside its table; the range form does so for characters 0 to 255; scan_is and scan_not stop at the first character in, or not in, the class; tolower and toupper change the 26 letters only; narrow and widen are inverse on ASCII and give the default for other characters; regex_traits::value is the digit value in base 8, 10 and 16. Every constructor of regex hands a pattern without NUL unchanged to the engine (UTF-16 decoded), and every overload of regex_search, regex_match and regex_replace works on exactly its range.", "quantifier": "every Char, class, range, pattern, text and engine", "why_tests_cant": "2^32 characters, unbounded ranges, patterns and texts, an arbitrary engine", "anchors": ["include/cybozu/regex.hpp: ctype, regex_traits, regex, regex_search, regex_match, regex_replace, regex_local::in"]}
{"id": "C95", "title": "cybozu::format stores exactly the formatted text or leaves the string unchanged, and frees what libc allocated", "statement": "format(str, ...) ends normally exactly when libc formats the text in at most INT_MAX bytes and memory suffices, and str is then this text with all its bytes, also when the arguments point into str. Otherwise it throws and str is unchanged. On every path the memory from libc is freed exactly once, after it was obtained. The MSVC form stores the same text when the arguments do not point into str.", "quantifier": "every format and arguments (their text), every destination contents, every failure of libc or of an allocation", "why_tests_cant": "texts are unbounded and failures of allocation and of libc cannot be provoked at will", "anchors": ["include/cybozu/format.hpp: vformat, format"]}
{"id": "C96", "title": "A File object reads, writes and seeks the file it was opened on", "statement": "open succeeds exactly for the supported mode combinations when the system opens the file (reading needs it to exist). The object is then at offset 0 of the old content (reading), of an emptied or new file (ios::out) or at the end of the old content (ios::app); other names and files are unchanged. From then on, any sequence of write, readSome, read, seek, getSize and sync, with short, interrupted and failing kernel calls, acts as an offset in a byte string: what is read is the bytes at the offset, what is written replaces the bytes at the offset (at the end for appending) and a failed write leaves a prefix written. No other file and no other descriptor changes. On a File that is not open every call with something to do throws and changes nothing.", "quantifier": "every file system content, name, mode, sequence of calls, buffer, offset and schedule of kernel results", "why_tests_cant": "contents, offsets and call sequences are unbounded and partial or interrupted kernel calls cannot be provoked in tests", "anchors": ["include/cybozu/file.hpp: cybozu::File, open, openW, openR, write, readSome, read, seek, getSize, sync"]}
{"id": "C97", "title": "File objects neither leak nor close the wrong descriptor", "statement": "In a program that constructs, opens, closes, destroys and uses File objects in any order, with calls that fail, each open object has a descriptor no other object and nobody else has, descriptors open before stay open and where they were, and the descriptors open are those from before and those of the open objects; when all objects are closed or destroyed the descriptors are those from before. An object attached to a handle leaves it open.", "quantifier": "every history of operations on any number of objects, with failing open, close and transfer calls (fdatasync does not fail in a destructor, fstat and lseek not in open: findings otherwise)", "why_tests_cant": "histories and numbers of objects are unbounded; a leak or a double close shows only in rare failure paths", "anchors": ["include/cybozu/file.hpp: File::File, File::~File, File::open, File::close"]}
{"id": "C98", "title": "Socket connects, listens, accepts and waits as documented, and keeps track of its descriptor", "statement": "connect of an object without a descriptor ends normally exactly when the kernel makes the connection (within the time given, if any); the object then has a new blocking descriptor connected to the address. Otherwise it throws, and closing the object gives the descriptors from before. bind listens at the port on every interface, reachable by exactly the families of its mode, or throws; when bind or listen fails no descriptor is left. queryAccept tells whether a connection is pending by the end of its time and never writes outside its descriptor set. accept gives the oldest pending connection a descriptor of its own and reports the client's address; n pending connections are accepted in order. Timeouts read back as set, rounded up to the kernel's tick. waitForClose returns exactly when the peer closes without sending more.", "quantifier": "every table of descriptors, address, port, mode, time, queue of pending connections and outcome of every system call", "why_tests_cant": "failures, interruptions and timings of system calls and full descriptor tables cannot be provoked at will", "anchors": ["include/cybozu/socket.hpp: Socket::connect, Socket::bind, Socket::accept, Socket::queryAccept, Socket::setSendTimeout, Socket::getSendTimeout, Socket::setLinger, Socket::waitForClose"]}
{"id": "C99", "title": "SocketAddr resolves to the first usable address and its text identifies it", "statement": "set takes the first address of the family asked for (IPv4 if there is one and IPv6 is not forced) if it fits; otherwise it throws and the object has no address. getPort is then the port given. What the resolver allocated is freed exactly once unless IPv6 is forced. toStr is the dotted or bracketed host, a colon and the decimal port, and two addresses with the same text have the same family, host and port.", "quantifier": "every name, port, answer of the resolver and address", "why_tests_cant": "answers of the resolver are not under control of a test and 2^128 addresses cannot be enumerated", "anchors": ["include/cybozu/socket.hpp: SocketAddr::set, SocketAddr::toStr, SocketAddr::getPort"]}
{"id": "C100", "title": "RenameFile never overwrites and moves exactly what was named; RemoveFile removes one name", "statement": "With nobody interfering, RenameFile(from, to) either throws and leaves the file system as it was, or nothing (or only a symbolic link to nothing) was at to, and what from named is now at to with everything below it, gone from its old place, nothing else changed. It succeeds when to names nothing, from names something, to is not inside from and the system does not refuse. RemoveFile removes one name that is not a directory and nothing else (of a link, the link), or throws and changes nothing. DoesFileExist is exact for paths that end with neither slash nor backslash; GetFileSize is the length of the file that the path names.", "quantifier": "every tree of files, directories and symbolic links, every working directory, path text (relative, with . .. // links and trailing slashes) and refusal by the system", "why_tests_cant": "trees, paths and links are unbounded; data loss by an overwritten file shows only for special path forms", "anchors": ["include/cybozu/file.hpp: RenameFile, RemoveFile, DoesFileExist, GetFileSize"]}
{"id": "C101", "title": "GetFileList lists the directory", "statement": "For a directory that can be opened GetFileList returns true and appends to the list exactly the entries of the directory except . and .. that have the extension (all for an empty extension), each once, leaving the old elements; isFile and isDirectory of an entry say what is there, or throw if the file system does not tell. If it cannot be opened the list is as it was and the result is false (the second form throws). The directory handle is closed on every way out, also when the caller's condition throws. GetExePath returns the directory, with its slash, of the executable and the name without .exe, if the path has at most 4094 bytes.", "quantifier": "every directory content and order of entries, list, extension, path, condition function", "why_tests_cant": "directory contents, orders, entry types and throwing conditions are unbounded", "anchors": ["include/cybozu/file.hpp: GetFileList, FileInfo, filterAndPush, GetExePath"]}
{"id": "C102", "title": "Strings survive text streams and the serializer", "statement": "Unicode strings written with operator<< line by line (or word by word) are read back exactly by the loop over getline (or operator>>), and for every UTF-8 text those loops deliver exactly its lines (or words) whatever white space surrounds them. A line that is not UTF-8 makes getline throw with the stream after that line and the string holding the valid part; a string with an invalid character makes operator<< throw before anything is written. load restores what save wrote, for every delivery of the stream, and throws when the stream ends early. pop_back removes the last character and throws on an empty string.", "quantifier": "every list of strings over all Unicode scalar values, every delimiter below 128, white space, invalid byte sequence, byte order and chunking of the input", "why_tests_cant": "texts, invalid sequences and deliveries are unbounded", "anchors": ["include/cybozu/string.hpp: getline, operator>>, operator<<, load, save, String::pop_back"]}
{"id": "C103", "title": "Sleep sleeps exactly as long as asked, whatever signals arrive", "statement": "Sleep(msec) with msec >= 0 never returns before msec milliseconds have gone by, however often and whenever signal handlers interrupt it; interruptions do not add to the time either: it returns as late as its last system call does. It makes one call more than it was interrupted, each with a duration the system accepts, prints nothing, and returns as soon as one call is not interrupted. With msec < 0 it returns at once after printing the error.", "quantifier": "every msec of type int, every sequence of interruptions at every moment, every lateness of the scheduler", "why_tests_cant": "the moments and the number of the signals are not under a test's control", "anchors": ["include/cybozu/thread.hpp: cybozu::Sleep"]}
{"id": "C104", "title": "thread::Begin answers what it did", "statement": "thread::Begin returns true exactly if all its system calls succeed, and then exactly one thread was started, with the entry, argument and stack size asked for, and its handle stored. If it returns false and the attributes could be released, no thread was started and the handle is unchanged. The attributes it initialised are released last on every way out. GetProcessorNum returns 0 on error and the system's answer otherwise.", "quantifier": "every combination of results of the system calls, every entry, argument, handle and stack size", "why_tests_cant": "the failures of pthread functions cannot be provoked in a test", "anchors": ["include/cybozu/thread.hpp: thread::Begin, GetProcessorNum"]}
{"id": "C105", "title": "The atomic operations lose and duplicate nothing", "statement": "Under every interleaving of any number of threads: AtomicAdd calls on an object end in its first value plus all addends (mod 2^bits), and each returns the sum of those before it, so that counting up hands out distinct numbers until the type wraps; AtomicExchange hands out each value exactly once, so that a handle is taken by one caller only; AtomicCompareExchange stores exactly if it returns the expected value, and a spin lock made of it is held by one thread at most. Other objects are not touched.", "quantifier": "every sequence of calls of every number of threads on every number of objects, every value, 32 and 64 bits", "why_tests_cant": "the interleavings are unbounded", "anchors": ["include/cybozu/atomic.hpp: AtomicAdd, AtomicCompareExchange, AtomicExchange"]}
{"id": "C106", "title": "isSet and the printed settings of an Option tell what the command line gave", "statement": "After a successful parse isSet(&v) is true exactly for the variables to which the command line gave a value (an option that was named, the k-th parameter if there were more than k positional arguments, the rest vector if there were more positional arguments than parameters), and throws for every address that was not declared. operator<< prints exactly one line per parameter, for the rest, and per option in the order of declaration, with (set) or (default) accordingly. The text printed for an integer variable of any width, given back as the option's value, restores it. The program name is the path behind its last slash or backslash.", "quantifier": "every sequence of declarations with distinct variables, every command line, every integer value and type, every path", "why_tests_cant": "declarations and command lines are unbounded", "anchors": ["include/cybozu/option.hpp: Option::isSet, operator<<, Var, Holder::toStr, convertToStr, getBaseName, clearDelimiterList"]}
{"id": "C107", "title": "The pair statistics of the compressed bit vector count neighbours and join codes bit by bit", "statement": "After any sequence of codes the counter of every pair is the number of times its second code followed its first (as a uint32_t), and a code outside the table throws. getPairMap lists every pair with its counter, the most frequent first. The code made of a pair stands for exactly the bits of the first code followed by those of the second, also for runs longer than 64 bits, and when it refuses there is no such code. getTopEncoding joins a most frequent pair. Every code of the table CSucVector uses is of the form this needs.", "quantifier": "every table of codes, every sequence of codes, every pair", "why_tests_cant": "sequences and run lengths are unbounded", "anchors": ["include/cybozu/csucvector.hpp: csucvector_util::Bigram::append, getPairMap, isAll1, concatPair, getTopEncoding"]}
{"id": "C108", "title": "A MiniXml holds the last document and deletes every node once", "statement": "parse succeeds exactly on documents and get() is then the document's tree whatever was parsed before; a text that does not start with <?xml throws and leaves the object unchanged. The destructor deletes each node made by the last parse that got past <?xml exactly once, also when that parse threw in the middle. operator[] of a const Attributes is the last value given to the key and throws if there was none; operator[] of a non-const one adds an empty value and changes nothing else.", "quantifier": "every sequence of texts given to one object, every list of attributes and key", "why_tests_cant": "texts, trees and histories are unbounded", "anchors": ["include/cybozu/minixml.hpp: MiniXml::parse, get, ~MiniXml, MiniXml(begin, end), Node::~Node, Node::appendChild, Attributes::query, Attributes::operator[]"]}
{"id": "C109", "title": "Sha256, Sha512 and hmac256 on OpenSSL equal the built-in ones", "statement": "Any program that creates, clears, feeds, digests and destroys Sha256 and Sha512 objects, with a clear between a digest and the next use of the object, gets the same results (SHA-2 of the bytes since the last clear; 0 and an untouched buffer if it is too small) whether the classes are built on EVP_MD_CTX, on SHA256_CTX/SHA512_CTX or built in. On EVP_MD_CTX there is one context per object, freed exactly when the object is destroyed and never twice. hmac256 on EVP_MD_CTX is the RFC 2104 HMAC.", "quantifier": "every program over any number of objects, all byte strings, buffers, keys and messages", "why_tests_cant": "the histories, the objects and the lengths are unbounded, and a test runs one build", "anchors": ["include/cybozu/sha2.hpp: NewHash, Sha256, Sha512, hmac256"]}
{"id": "C110", "title": "CSV files by name: written is what is read, and failures throw", "statement": "Rows written through CsvWriter to a file name, with any buffering in the stream, leave in that file exactly the rows' text, whatever it held before, and touch no other file; CsvReader on that name returns the same rows and then false. The constructors throw exactly on a bad separator. A write call throws exactly when the file could not be opened or a write of the stream has failed by then.", "quantifier": "all rows of characters, all four separators, all file systems, all ways the stream buffers, all failures of the system", "why_tests_cant": "buffering, failure points and contents are unbounded; a test sees one file system that works", "anchors": ["include/cybozu/csv.hpp: CsvReader, CsvWriter, CsvWriterT::write", "include/cybozu/stream.hpp: write, readSome"]}
{"id": "C111", "title": "Typed configuration values, and what a failing load leaves", "statement": "Section::getValue(key) as an integer returns the number the value shows, for each of the six integer types, and throws if the key is missing or the value is no numeral of that type; with a default, the default is returned exactly when the key is missing, and a bad value still throws. A number stored with itoa is read back after save and load. A load that throws has read exactly the lines before the bad one.", "quantifier": "all sections, keys, values, defaults, types, numbers and configuration texts", "why_tests_cant": "values and texts are unbounded, and the point of failure can be any line", "anchors": ["include/cybozu/config.hpp: Section::getValue, ResultType, getValueInteger, load", "include/cybozu/atoi.hpp: atoi"]}
{"id": "C112", "title": "fmindex_smpl finds in the index what it finds in the text", "statement": "After fmindex_smpl -c made an index of a file, -s prints for every word of the query file exactly the positions at which the word stands in the file (overlapping ones too), in increasing order; that is what the simple search -ss prints, and with -hash both print the same hash; -r gives back the file byte for byte. What cannot be indexed is refused with status 1 and no file is touched.", "quantifier": "all texts (up to 2^31-2 bytes, 255 different ones), sampling distances, query files, file names and ways the index file is read", "why_tests_cant": "texts, query files and positions are unbounded", "anchors": ["sample/fmindex_smpl.cpp: main, create, search, simpleSearch, recover", "include/cybozu/fmindex.hpp: FMindexT"]}
{"id": "C113", "title": "Threads that read one sparse vector at the same time", "statement": "Any number of threads may iterate over one const SparseVector at the same time: each sees exactly the stored pairs and the vector is not changed. For CompressedPositionTbl this holds once begin() has been called after the last change; without that, two readers can corrupt the vector.", "quantifier": "all vectors, numbers of threads and orders of the steps of the threads", "why_tests_cant": "the schedules are unbounded, and the failing ones are rare", "anchors": ["include/cybozu/nlp/sparse.hpp: SparseVector, ConstIterator, CompressedPositionTbl::Curr"]}
{"id": "C114", "title": "One-call compression and the zlib_smpl command", "statement": "ZlibCompress writes the zlib stream of the data to the caller's buffer and returns its length if it fits, returns 0 if it does not, throws for a bad level or lack of memory, and never writes behind the buffer; ZlibUncompress gives exactly those data back from exactly that many bytes, and throws if the bytes are no stream or the data do not fit. zlib_smpl refuses a file whose stream would be longer than the file without touching the output; a file it has compressed comes back with -d if it is at most ten times as long as its stream, and else -d ends with status 1 and writes nothing.", "quantifier": "all data, levels, buffers, file names and contents, and every zlib whose streams are not empty and are read back", "why_tests_cant": "the boundary cases depend on the data and on how well they compress; sizes from 4 GiB cannot be tried", "anchors": ["include/cybozu/zlib.hpp: ZlibCompress, ZlibUncompress", "sample/zlib_smpl.cpp: main"]}
{"id": "C115", "title": "csucvector_smpl gives every file back bit by bit", "statement": "For every file of less than about 512 MiB the command ends with status 0, and the bits it read from the vector that was compressed, saved and loaded are exactly the bits of the file, the lowest bit of each byte first, whatever the length of the file modulo 8. A file of 512 MiB or more is refused with an exception.", "quantifier": "all file contents and lengths, and all ways in which the stream hands over the saved bytes", "why_tests_cant": "the files are unbounded, and the result is a chain of four components with limits of their own", "anchors": ["sample/csucvector_smpl.cpp: test, main", "include/cybozu/csucvector.hpp: CSucVector", "include/cybozu/bitvector.hpp: BitVectorT"]}
{"id": "C116", "title": "The two-step option parser gives each argument to the right parser", "statement": "option2_smpl puts the settings exactly for arguments of the form: any number of -x with an integer, one of the commands init, run and status, any number of that command's own option with a value it takes. Then the common variable has received exactly the values before the command and the variable of the command exactly those behind it, in order. Every other command line ends with a usage or help message; only a program whose own name is a command is taken for that command when there are no arguments.", "quantifier": "all command lines, and all conversions of a text to a double or a char", "why_tests_cant": "command lines are unbounded and two parsers with different options share them", "anchors": ["sample/option2_smpl.cpp: Opt::parse1, Opt::parse", "include/cybozu/option.hpp: Option::parse, appendDelimiter, getNextPositionOfDelimiter"]}
{"id": "C117", "title": "The option parser says exactly why it fails", "statement": "When Option::parse returns false it has printed one line that gives the reason: the option that got no value or a bad one (with the value, and its index for an option that takes several), the parameter that rejected its value, the argument there is no place for, or the first mandatory option or parameter in declaration order that is missing. When it succeeds it prints nothing; when the help option is reached it prints the description, the usage line with the base name of the program, and one line for each described parameter and each option in declaration order. Printing never changes the result. Exceptions: an unknown option is not named, and after setUsage(text) no option is listed.", "quantifier": "all declarations of options and parameters, all their texts, all command lines, all start positions", "why_tests_cant": "declarations and command lines are unbounded and every prefix of a command line can fail in a different way", "anchors": ["include/cybozu/option.hpp: Option::parse, usage, setUsage, setDescription, OptionError::set, Info::usage, Info::shortUsage", "include/cybozu/exception.hpp: Exception::operator<<"]}
{"id": "C118", "title": "The select table is the one its generator prints, and select64 agrees with the generator's loop", "statement": "The program that generates the table finds, for every word and every r from 1 on, the r-th set bit, and 64 if the word has fewer; select64 of the library, which works byte by byte with that table, gives the same answer for every 64-bit word; and the table in the library is entry for entry the one the program prints. For r = 0 the answer only depends on bit 0 (0 for even words, 64 for odd ones).", "quantifier": "all 64-bit words, all r, all entries of the table", "why_tests_cant": "2^64 words times the ranks", "anchors": ["misc/make_select8tbl.cpp: select8, main", "include/cybozu/select8.hpp: select64, select8_util"]}
{"id": "C119", "title": "svd_smpl: arguments, input and the three result files", "statement": "The command reads its arguments as names and ranks (-r followed by a number); the first non-empty name is the input and the second the output, which is the input if missing; the last rank counts, 10 if there is none; any other list of names shows the usage with status 1 and writes nothing, and a rank that is not a decimal int aborts. If the input file holds a matrix (sparse or dense) and the rank is positive, output.U, output.S and output.V are written with the factors for the smaller of the rank and the sides, reading them back gives every number rounded to its text, and no other file changes; if the input cannot be read nothing is written. Exceptions: -r as the last argument is a file name, the status is 0 even if reading, computing or writing fails, and a rank that is not positive writes files that no loader accepts.", "quantifier": "all command lines, all file contents, all results of the decomposition", "why_tests_cant": "command lines and file contents are unbounded", "anchors": ["sample/svd_smpl.cpp: main, Run, usage", "include/cybozu/nlp/svd.hpp: LoadSparseMatrix, LoadMatrix, SaveMatrix, SaveVector, ComputeSVD", "include/cybozu/atoi.hpp: atoi"]}
{"id": "C120", "title": "Every load reads its stream as a deterministic parser, even from bytes nobody saved", "statement": "For any bytes whatsoever, whether load succeeds, which object it gives and how many bytes it uses depend on the bytes alone, not on how the stream hands them over. When it succeeds it has used an initial part of the bytes; with anything else behind that part it gives the same object and uses the same part, and if the stream ends before the last byte of that part it throws. So a file that loads completely throws in every truncated version, and a sequence of objects has only one reading. This holds for integers, strings, vectors, lists, sets and maps nested to any depth, structs of them, cybozu::String, SucVector, CSucVector, WaveletMatrix, FMIndex, SparseVector and Frequency, loaded into any object.", "quantifier": "all bytes, all ways a stream can cut its data into short reads, all types, all objects loaded into, all truncations", "why_tests_cant": "bytes from outside are arbitrary and streams may return any number of bytes per call", "anchors": ["include/cybozu/serializer.hpp: load", "include/cybozu/stream.hpp: read, readSome", "include/cybozu/sucvector.hpp, csucvector.hpp, wavelet_matrix.hpp, fmindex.hpp, frequency.hpp, string.hpp, nlp/sparse.hpp: load"]}
{"id": "C121", "title": "A compressor whose output fails never pretends the file is complete", "statement": "Write any data with ZlibCompressor and flush, or let the destructor flush, to an output stream that may throw at any write. Every call and the destructor end, and the destructor never throws. If no call threw and the destructor printed nothing, the stream received the complete file: header, deflate stream of everything written, CRC and length. If the stream never throws nothing is reported. With a stream that stays broken after its first failure, such as std::ostream, the output is always a first part of the file a working stream would hold, whatever the program catches and calls afterwards. flush takes effect once, whether it returned or threw: neither a second flush nor the destructor writes again. The deflate state is released unless the constructor threw.", "quantifier": "all data, all ways of splitting it into writes, all sequences of calls, all moments at which the output stream fails, all amounts it stored by then, all output streams, any deflate that meets zlib's contract", "why_tests_cant": "failures of a device happen at arbitrary moments; a test can provoke only some", "anchors": ["include/cybozu/zlib.hpp: ZlibCompressorT, write, flush, ~ZlibCompressorT", "include/cybozu/stream.hpp: writeSub, MemoryOutputStream"]}
{"id": "C122", "title": "A save that fails half way never leaves bytes that load as another object", "statement": "Save any object to an output stream that may throw at any write, having stored any part of it. The save ends. If it returned, loading the bytes it left gives the object back with no byte left over. If it threw, loading what it left throws or, when every byte had arrived, gives the object back: never another one. If the stream does not fail the save does not throw. This holds for numbers, strings, vectors, lists, sets and maps nested to any depth, structs of them, cybozu::String, SucVector, CSucVector, WaveletMatrix, FMIndex, Frequency and SparseVector.", "quantifier": "all objects, all moments at which the output stream fails, all amounts of the failing write it had stored, all output streams, all ways the loading stream cuts its reads", "why_tests_cant": "a device can be full after any byte, and which prefixes of a file parse is not visible from examples", "anchors": ["include/cybozu/serializer.hpp: save, savePod, savePodVec, saveRange, load", "include/cybozu/stream.hpp: write", "include/cybozu/sucvector.hpp, csucvector.hpp, wavelet_matrix.hpp, fmindex.hpp, frequency.hpp, string.hpp: save, load"]}
{"id": "C123", "title": "The random generator hands out device bytes in order and each once, or throws; an interrupted shuffle is still a permutation", "statement": "Over any sequence of get32, get64 and read calls of less than 2^31 bytes on one RandomGenerator, whatever the device delivers to each of them, the calls consume consecutive pieces of the device's bytes: no byte serves two calls and none is skipped. A call returns exactly when its piece is complete, and then the number or the buffer consists of that piece; otherwise it throws. Nothing depends on what was on the stack. If the device delivers enough no call throws. shuffle drawing from it never leaves the array and leaves a permutation of it even when an exception stops it half way; when it returns it used 8(n-1) consecutive bytes as its n-1 numbers.", "quantifier": "all sequences of calls, all devices, all moments and amounts of short reads, all arrays, both byte orders", "why_tests_cant": "short reads of the random device practically never happen in tests, and an uninitialised result looks random", "anchors": ["include/cybozu/random_generator.hpp: RandomGenerator::read, get32, get64, operator(), shuffle"]}
{"id": "C124", "title": "socket_smpl takes its settings from the arguments, listens accordingly and shows what clients send", "statement": "socket_smpl runs exactly when its arguments are the documented options with values of their types and at most one command; address, port, timeout and command are the last values given or the defaults. Without -m the server listens on IPv4 and IPv6, with -m 4 on IPv4 only and with -m 6 on IPv6 only. As long as every client is accepted and its data or end of data comes in time, the server handles them one after the other and for each prints a non-empty first part of what it sent, at most 128 bytes, up to a NUL, with the number of bytes; a shorter text that arrives at once is printed whole. Nothing it prints comes from uninitialised memory.", "quantifier": "all argument lists, all sequences of clients, all data, all ways the kernel cuts and interrupts the reads", "why_tests_cant": "argument lists and client behaviours are unbounded, and how TCP cuts the data is not under a test's control", "anchors": ["sample/socket_smpl.cpp: main", "include/cybozu/socket.hpp: Socket::bind, Socket::readSome", "include/cybozu/option.hpp: Option::parse"]}
{"id": "C125", "title": "Times taken from the clock keep the clock's order, as times, as texts and as doubles", "statement": "A Time taken from the clock is the clock's value cut to milliseconds. If the clock does not go back, a later Time is never before an earlier one, and it is after it once a millisecond has passed. addSec moves a Time by exactly that many seconds unless the result is no time_t. From 1970 to the end of 9999 the text of a Time has 23 characters and texts compare as strings exactly as the Times compare. Up to the year 2242 getTimeSec is within a microsecond of the Time and orders Times as the Times are ordered, and the difference of two GetCurrentTimeSec is the elapsed time to 1.002 ms.", "quantifier": "all clock values, all seconds and milliseconds of the stated ranges, all pairs of them", "why_tests_cant": "10^13 times and all pairs of them; rounding of doubles and leap years decide the order", "anchors": ["include/cybozu/time.hpp: Time::setCurrentTime, addSec, toString, getTimeSec, operator<, GetCurrentTimeSec"]}
{"id": "C126", "title": "Aligned stack memory", "statement": "CYBOZU_ALIGNED_ALLOCA(x, align) for a power of two gives an address that is a multiple of align, and x usable bytes: they lie inside the memory allocated exactly when alloca's own address has the alignment, so always for alignments up to 16 on x86-64. (For larger alignments the address is rounded down and the memory can start before the block: a finding.)", "quantifier": "all sizes, all powers of two, all addresses alloca may return", "why_tests_cant": "the address of the stack is not under a test's control; a test passes whenever the stack happens to be aligned", "anchors": ["include/cybozu/inttype.hpp: CYBOZU_ALIGNED_ALLOCA, CYBOZU_ALLOCA"]}
{"id": "C127", "title": "ssl_smpl fetches a page", "statement": "ssl_smpl host path sends exactly the HTTP/1.0 request for the path (a first part of it if it fails), and prints, between its own lines, the page the server sends: a page without NUL is printed whole in whatever pieces it comes and however often the TLS library asks to wait, with its length as an int behind it. If it ends with status 0 the server has closed the connection and the request was sent; on a TLS error it has printed what came before, prints the error and ends with status 1. Nothing printed comes from uninitialised memory.", "quantifier": "all hosts, paths and pages, all ways the TLS library cuts, delays and fails writes and reads", "why_tests_cant": "the pieces in which data arrive are not under a test's control, pages are unbounded", "anchors": ["sample/ssl_smpl.cpp: main", "include/cybozu/ssl.hpp: ClientSocket::write, ClientSocket::readSome"]}
{"id": "C128", "title": "Loading from a user-made input stream", "statement": "An object written by save is loaded by load from any class with a readSome that gives at least one and at most the wanted number of bytes while some are left: the equal object comes back and exactly its bytes are taken, whatever sizes readSome chooses; if bytes are missing and readSome gives 0 at the end, load throws. MemoryInputStream, StringInputStream, std::istream and the VecInputStream of serializer_smpl are such classes, and the structs of serializer_smpl come back from each of them. VecInputStream is undefined, and not 0, at its end.", "quantifier": "all serializable types, values, stream classes with that contract, stream states, sizes chosen by readSome and places where the data are cut", "why_tests_cant": "classes written by users are not there to test, and sizes and cuts are unbounded", "anchors": ["sample/serializer_smpl.cpp: Data, Data2, VecInputStream, VecInputStream2, VecOutputStream", "include/cybozu/serializer.hpp: load", "include/cybozu/stream.hpp: read, InputStreamTag, MemoryInputStream, StringInputStream"]}
{"id": "C129", "title": "wm_bench_smpl compares like with like", "statement": "On every sequence of fewer than 2^32 bytes the linear scans of wm_bench_smpl (get, rank, rankLt, select) and WaveletMatrix give the same answers wherever the scans are defined, NotFound included, so the comparison of the program ends with 'select ok' whatever pairs its table holds. Behind the end of the sequence the scans are undefined. For n = NotFound the scan for select wraps.", "quantifier": "all byte sequences, values, positions, ranks and tables of pairs", "why_tests_cant": "the program compares two pairs only", "anchors": ["sample/wm_bench_smpl.cpp: Naive, bench_select", "include/cybozu/wavelet_matrix.hpp: WaveletMatrix"]}
{"id": "C130", "title": "mecab_smpl prints the words of a file", "statement": "mecab_smpl file hands exactly the bytes of a file of 1 to 2^30 bytes to the analyser and prints the words of its output, each followed by a space, and a newline, with status 0; without a file name, with a file that cannot be mapped or is larger, or without a tagger it prints nothing on stdout, a message on stderr and ends with status 1. If the analyser fails it ends with status 0 and says nothing.", "quantifier": "all arguments, files and outputs of the analyser", "why_tests_cant": "files and outputs are unbounded and the analyser is a library", "anchors": ["sample/mecab_smpl.cpp: main", "include/cybozu/nlp/mecab.hpp: Mecab::parse"]}
