{"id": "C01", "title": "Integers on the wire are big-endian", "statement": "Every 8/16/32-bit signed or unsigned integer and every ID written by the library appears in the file as its big-endian two's-complement bytes, and reading those bytes returns the value they denote, on little-endian and big-endian hosts alike.", "quantifier": "all values of each integer type, all byte contents, both host byte orders", "why_tests_cant": "a test runs on one host byte order and on a handful of the 2^32 values", "anchors": ["src/libiff/io.c: IFF_readUByte IFF_writeUByte IFF_readUWord IFF_writeUWord IFF_readWord IFF_writeWord IFF_readULong IFF_writeULong IFF_readLong IFF_writeLong", "src/libiff/id.c: IFF_readId IFF_writeId"]}
{"id": "C02", "title": "Integer write/read round trip across hosts", "statement": "A value written by IFF_write<T> on one host and read by IFF_read<T> on any other host is returned unchanged, and the reader stops exactly behind it.", "quantifier": "all in-range values of every primitive type, every pair of host byte orders, any following bytes", "why_tests_cant": "2^32 values times host pairs cannot be enumerated", "anchors": ["src/libiff/io.c"]}
{"id": "C03", "title": "Primitive reads of short input fail loudly", "statement": "Reading a primitive when fewer bytes remain than its width returns FALSE and reports an error through the error callback; it never returns TRUE with a made-up value.", "quantifier": "all inputs shorter than the type, all types", "why_tests_cant": "every truncation point in every type", "anchors": ["src/libiff/io.c", "src/libiff/error.c: IFF_readError"]}
{"id": "C04", "title": "Files are host independent", "statement": "Reading the same bytes, and writing, checking or comparing the same chunk tree, gives the same result, the same bytes and the same diagnostics on big- and little-endian hosts.", "quantifier": "all inputs, all trees, both byte orders", "why_tests_cant": "tests run on one byte order", "anchors": ["src/libiff/io.c", "src/libiff/chunk.c", "src/libiff/iff.c"]}
{"id": "C05", "title": "Field reads respect the chunk's virtual end of file", "statement": "A field read through IFF_read<T>Field consumes at most the bytes the chunk declares: it reads the field if and only if the field still fits in the chunk and otherwise reports LAST and consumes nothing. Holds whenever the chunk is at least as large as the field; for smaller (or negative) declared sizes the unsigned subtraction wraps and the read overruns the chunk (refuted there).", "quantifier": "all chunk sizes, positions and field types, 32 and 64 bit size_t", "why_tests_cant": "the wrap only shows for sizes smaller than the field", "anchors": ["src/libiff/field.c: fieldDoesNotFitInChunk IFF_readUByteField IFF_readLongField IFF_readIdField", "src/libiff/group.c: IFF_readGroup"]}
{"id": "C06", "title": "ID validation is exact", "statement": "IFF_checkId accepts an ID exactly when its four characters are in the range 0x20..0x7e and the first is not a space, and reports an error exactly when it rejects.", "quantifier": "all 2^32 IDs", "why_tests_cant": "2^32 IDs", "anchors": ["src/libiff/id.c: IFF_checkId"]}
{"id": "C07", "title": "FORM type validation is exact", "statement": "IFF_checkFormType accepts a form type exactly when it is a valid ID without lower-case letters or full stops and is not one of the reserved group, version or blank IDs. (The standard forbids all punctuation: see C31.)", "quantifier": "all 2^32 IDs", "why_tests_cant": "2^32 IDs", "anchors": ["src/libiff/form.c: IFF_checkFormType"]}
{"id": "C08", "title": "ID text form is faithful", "statement": "IFF_idToString yields the four characters MAKEID packs, and packing them again gives the same ID; two different IDs have different text.", "quantifier": "all 4-character combinations", "why_tests_cant": "2^32 IDs", "anchors": ["src/libiff/id.c: IFF_idToString", "src/libiff/id.h: IFF_MAKEID"]}
{"id": "C09", "title": "Chunk handler lookup follows the registry scoping rules", "statement": "IFF_findChunkType returns the handler registered for the chunk ID in the innermost scope that registers it: the form type's own table, then its parents; if the form type is unknown the global table; and the registry's default handler otherwise. Sortedness of the tables is all that is needed for the binary search to find every registered ID.", "quantifier": "all registries with sorted tables, all form types, all chunk IDs", "why_tests_cant": "all registries and IDs", "anchors": ["src/libiff/chunkregistry.c: IFF_findChunkType getFormChunkTypes getChunkType"]}
{"id": "C10", "title": "The default registry handles exactly the four group IDs specially", "statement": "With the default registry FORM, CAT, LIST and PROP get their group handlers in every scope and every other ID is handled as raw data.", "quantifier": "all form types and chunk IDs", "why_tests_cant": "2^64 combinations", "anchors": ["src/libiff/defaultregistry.c: IFF_defaultChunkRegistry"]}
{"id": "C11", "title": "Extension registries keep group chunks working", "statement": "Reading a file whose FORM contains nested groups yields properly typed group chunks under an extension registry. Refuted for registries whose form node has no parent (as in the shipped example and tests): a nested FORM is parsed as raw data, and later structure walks misinterpret it. Holds when the form node's parent is the default global table.", "quantifier": "all extension registries, all files", "why_tests_cant": "depends on nesting combinations the tests do not contain", "anchors": ["src/libiff/chunkregistry.c", "tests/test.c"]}
{"id": "C12", "title": "Reading terminates", "statement": "IFF_readFd finishes on every finite input, with nesting and work bounded by the input length, whatever the sizes in the headers claim.", "quantifier": "all byte strings", "why_tests_cant": "all malformed inputs", "anchors": ["src/libiff/chunk.c: IFF_readChunk", "src/libiff/group.c: IFF_readGroupSubChunks", "src/libiff/list.c: IFF_readListSubChunks"]}
{"id": "C13", "title": "Reading untrusted input has no undefined behaviour", "statement": "IFF_readFd never executes undefined behaviour (integer overflow, type confusion, out-of-bounds access, null dereference). Refuted: a 48 byte file with negative group sizes overflows a signed int. Proved for every input shorter than 2^31-17 bytes in which no chunk header declares a negative size, with allocations that succeed.", "quantifier": "all byte strings", "why_tests_cant": "hostile inputs are adversarially chosen", "anchors": ["src/libiff/group.c: IFF_incrementChunkSize IFF_readGroupSubChunks", "src/libiff/chunk.c: IFF_readChunk"]}
{"id": "C14", "title": "A successful read accounts for every byte", "statement": "If a read succeeds then the bytes consumed are precisely an encoding of the returned tree: ids, sizes, types and data as in the file, in file order, nothing invented or dropped but pad byte values and the position of PROPs within a LIST.", "quantifier": "all byte strings without negative sizes, every returned tree", "why_tests_cant": "all inputs", "anchors": ["src/libiff/chunk.c: IFF_readChunk IFF_readChunkBody", "src/libiff/group.c", "src/libiff/list.c", "src/libiff/rawchunk.c"]}
{"id": "C15", "title": "Truncated files are rejected", "statement": "If a file reads successfully, then every strict prefix of the bytes consumed is rejected with NULL.", "quantifier": "all files, all truncation points, default registry", "why_tests_cant": "all truncation points of all files", "anchors": ["src/libiff/iff.c: IFF_readFd", "src/libiff/chunk.c"]}
{"id": "C16", "title": "Write then read gives back the tree", "statement": "Writing a well-formed chunk tree and reading the bytes back returns an identical tree and leaves the stream right behind it.", "quantifier": "all well-formed trees of any depth and width, any sane registry, any trailing bytes, any pair of hosts", "why_tests_cant": "unbounded trees", "anchors": ["src/libiff/chunk.c", "src/libiff/group.c", "src/libiff/form.c", "src/libiff/cat.c", "src/libiff/list.c", "src/libiff/prop.c", "src/libiff/rawchunk.c"]}
{"id": "C17", "title": "Read then write reproduces the file", "statement": "Reading a canonical file (zero pad bytes, exact group sizes, PROPs first in LISTs) and writing the result reproduces it byte for byte. Refuted without the canonicity conditions.", "quantifier": "all canonical byte strings", "why_tests_cant": "unbounded inputs", "anchors": ["src/libiff/chunk.c", "src/libiff/list.c: IFF_readListSubChunks IFF_writeList"]}
{"id": "C18", "title": "Trailing data is ignored with a warning", "statement": "Bytes after the main chunk do not influence the returned tree; a warning is reported exactly when there are any.", "quantifier": "all files and all trailing data", "why_tests_cant": "all inputs", "anchors": ["src/libiff/iff.c: IFF_readFd"]}
{"id": "C19", "title": "Failed reads are reported", "statement": "If IFF_readFd returns NULL because of the input, the error callback has been called at least once.", "quantifier": "all byte strings, default registry", "why_tests_cant": "all malformed inputs", "anchors": ["src/libiff/iff.c: IFF_readFd", "src/libiff/chunk.c", "src/libiff/io.c"]}
{"id": "C20", "title": "Read results never contain uninitialised memory", "statement": "Every data chunk in a tree returned by read has exactly chunkSize initialised data bytes, all of which came from the input, and each chunk has the structure its handler expects.", "quantifier": "all byte strings, any sane registry", "why_tests_cant": "uninitialised contents are invisible to most tests", "anchors": ["src/libiff/rawchunk.c: IFF_readRawChunk IFF_createRawChunk", "src/libiff/chunk.c: IFF_readChunkBody"]}
{"id": "C21", "title": "Written bytes are the specified encoding", "statement": "Writing a well-formed tree emits exactly the EA IFF 85 encoding: id, size, body, and a zero pad byte after odd bodies, recursively.", "quantifier": "all well-formed trees", "why_tests_cant": "unbounded trees", "anchors": ["src/libiff/chunk.c: IFF_writeChunk", "src/libiff/group.c: IFF_writeGroup", "src/libiff/list.c: IFF_writeList", "src/libiff/rawchunk.c: IFF_writeRawChunk"]}
{"id": "C22", "title": "Chunks are word aligned", "statement": "The length of everything written for a chunk is even, so every nested chunk starts at an even offset, and the header's size rounded up plus 8 is the length written.", "quantifier": "all well-formed trees", "why_tests_cant": "unbounded trees", "anchors": ["src/libiff/io.c: IFF_writePaddingByte", "src/libiff/chunk.c: IFF_writeChunkBody"]}
{"id": "C23", "title": "Reported write success means complete output", "statement": "If IFF_writeFd returns TRUE, everything was handed to the stream; if it returns FALSE an error was reported. Refuted for IFF_writeFile: buffered data lost when closing is reported as success.", "quantifier": "all trees, all device capacities, all stdio buffer sizes", "why_tests_cant": "device-full points are arbitrary", "anchors": ["src/libiff/iff.c: IFF_writeFd IFF_writeFile", "src/libiff/error.c: IFF_writeError"]}
{"id": "C24", "title": "A crash or full disk never yields a wrong but readable file", "statement": "Whatever the point at which output stops, the bytes on the device are a prefix of the full encoding, and reading back an incomplete one is rejected rather than returning a different tree.", "quantifier": "all trees, all crash points, all buffer sizes", "why_tests_cant": "all crash points", "anchors": ["src/libiff/iff.c: IFF_writeFile IFF_readFile", "src/libiff/chunk.c"]}
{"id": "C25", "title": "Group size mismatches when writing", "statement": "For a tree whose group sizes are not consistent, writing does not detect it: a too large size is filled with zero bytes so the chunk still has the declared length; a too small size produces a file whose body is longer than declared.", "quantifier": "all trees", "why_tests_cant": "all inconsistent trees", "anchors": ["src/libiff/chunk.c: IFF_writeChunkBody", "src/libiff/io.c: IFF_writeZeroFillerBytes"]}
{"id": "C26", "title": "IFF_check is sound and complete", "statement": "IFF_check returns TRUE exactly for conforming trees: valid IDs, valid form types, only permitted chunks in each group, and every group size equal to the length of its encoded contents. Exact for trees whose encoding is shorter than 2^31 bytes; beyond, wrapped sizes are accepted (refuted).", "quantifier": "all chunk trees of any shape, any sane registry", "why_tests_cant": "unbounded trees", "anchors": ["src/libiff/iff.c: IFF_check", "src/libiff/chunk.c: IFF_checkChunk", "src/libiff/group.c: IFF_checkGroup", "src/libiff/form.c: IFF_checkForm", "src/libiff/cat.c: IFF_checkCAT", "src/libiff/list.c: IFF_checkList", "src/libiff/prop.c: IFF_checkProp"]}
{"id": "C27", "title": "Checked trees survive storage", "statement": "A tree that passes IFF_check, with correctly sized data chunks, is written and read back as an identical tree, which again passes IFF_check and IFF_compare.", "quantifier": "all checked trees", "why_tests_cant": "unbounded trees", "anchors": ["src/libiff/iff.c: IFF_check IFF_write IFF_read IFF_compare"]}
{"id": "C28", "title": "Check reports why", "statement": "IFF_check returns FALSE exactly when it has reported an error.", "quantifier": "all chunk trees", "why_tests_cant": "unbounded trees", "anchors": ["src/libiff/iff.c: IFF_check", "src/libiff/group.c", "src/libiff/id.c"]}
{"id": "C29", "title": "Only FORM, CAT and LIST may be top level", "statement": "IFF_check rejects any tree whose root is not FORM, CAT or LIST.", "quantifier": "all chunk trees", "why_tests_cant": "unbounded trees", "anchors": ["src/libiff/iff.c: IFF_check"]}
{"id": "C30", "title": "Trees built through the API are valid", "statement": "A tree built from createForm/createCAT/createList/createProp and addTo* with permitted children, valid IDs and total size below 2^31 passes IFF_check without any manual size bookkeeping.", "quantifier": "all construction sequences", "why_tests_cant": "unbounded construction histories", "anchors": ["src/libiff/form.c: IFF_createEmptyForm IFF_addToForm", "src/libiff/cat.c: IFF_createEmptyCAT IFF_addToCAT", "src/libiff/list.c: IFF_createEmptyList IFF_addToList IFF_addPropToList", "src/libiff/prop.c: IFF_createEmptyProp IFF_addToProp"]}
{"id": "C31", "title": "IFF_check versus the EA IFF 85 standard", "statement": "IFF_check does not enforce every rule of the bundled standard: a LIST with two PROPs for the same FORM type and FORMs containing reserved chunk IDs are accepted, form types with punctuation other than a full stop are accepted, and the standard's filler chunk is rejected (refutations of full conformance).", "quantifier": "all chunk trees", "why_tests_cant": "needs a comparison with the standard, not with expected outputs", "anchors": ["src/libiff/list.c: IFF_checkList", "src/libiff/form.c: IFF_checkForm", "src/libiff/id.c: IFF_checkId", "doc/IFF.asc"]}
{"id": "C32", "title": "IFF_compare is an equivalence relation", "statement": "On well-typed trees IFF_compare is reflexive, symmetric and transitive and has no undefined behaviour.", "quantifier": "all pairs and triples of well-typed trees", "why_tests_cant": "unbounded trees", "anchors": ["src/libiff/chunk.c: IFF_compareChunk", "src/libiff/group.c: IFF_compareGroup", "src/libiff/list.c: IFF_compareList", "src/libiff/rawchunk.c: IFF_compareRawChunk"]}
{"id": "C33", "title": "IFF_compare decides equality of contents", "statement": "On checked trees IFF_compare returns TRUE exactly when the trees are identical, hence when they serialise to the same bytes. Refuted for unchecked trees: the header of a PROP in a LIST is not compared.", "quantifier": "all pairs of trees", "why_tests_cant": "unbounded trees", "anchors": ["src/libiff/list.c: compareListPropChunks", "src/libiff/chunk.c: IFF_compareChunk"]}
{"id": "C34", "title": "Padding values do not matter when reading", "statement": "The value of pad bytes does not influence the returned tree; a non-zero pad byte only causes a warning.", "quantifier": "all encodings of all trees", "why_tests_cant": "all inputs", "anchors": ["src/libiff/io.c: IFF_readPaddingByte"]}
{"id": "C35", "title": "IFF_searchForms finds exactly the outermost matching FORMs", "statement": "IFF_searchForms returns, in document order, every FORM with a requested form type that is not inside another such FORM, and nothing else.", "quantifier": "all trees, all sets of form types", "why_tests_cant": "unbounded trees", "anchors": ["src/libiff/group.c: IFF_searchForms IFF_searchFormsFromArray IFF_searchFormsInGroup", "src/libiff/form.c: IFF_searchFormsInForm", "src/libiff/list.c: IFF_searchFormsInList"]}
{"id": "C36", "title": "Chunk lookup in a FORM returns the first match", "statement": "IFF_getDataChunkFromForm returns the first direct sub chunk with the requested ID, and NULL exactly when there is none.", "quantifier": "all forms, all ids", "why_tests_cant": "unbounded forms", "anchors": ["src/libiff/form.c: IFF_getDataChunkFromForm"]}
{"id": "C37", "title": "All-chunks lookup returns every match in order", "statement": "IFF_getChunksFromForm returns exactly the direct sub chunks with the requested ID, in order (shared properties are not consulted).", "quantifier": "all forms, all ids", "why_tests_cant": "unbounded forms", "anchors": ["src/libiff/form.c: IFF_getChunksFromForm"]}
{"id": "C38", "title": "Shared properties follow lexical scoping", "statement": "IFF_getChunkFromForm returns the FORM's own chunk when present, otherwise the property from the innermost enclosing LIST with a PROP for this form type that sets it, and NULL otherwise.", "quantifier": "all trees, all positions of a FORM, all ids", "why_tests_cant": "unbounded nesting", "anchors": ["src/libiff/form.c: IFF_getChunkFromForm searchProperty searchList", "src/libiff/list.c: IFF_getPropFromList", "src/libiff/prop.c: IFF_getChunkFromProp"]}
{"id": "C39", "title": "Updating sizes repairs the path to the root", "statement": "After replacing a chunk anywhere in a tree whose other sizes are consistent, IFF_updateChunkSizes on its parent makes all sizes on the path to the root consistent and changes nothing but sizes.", "quantifier": "all trees, all positions", "why_tests_cant": "unbounded depth", "anchors": ["src/libiff/group.c: IFF_updateChunkSizes IFF_updateGroupChunkSizes", "src/libiff/list.c: IFF_updateListChunkSizes"]}
{"id": "C40", "title": "Size update is idempotent and keeps valid trees", "statement": "IFF_updateChunkSizes on a tree with consistent sizes changes nothing.", "quantifier": "all consistent trees, all positions", "why_tests_cant": "unbounded trees", "anchors": ["src/libiff/group.c: IFF_updateChunkSizes"]}
{"id": "C41", "title": "Adding a chunk keeps the size field consistent", "statement": "IFF_addToForm/CAT/List/Prop and IFF_addPropToList append the chunk and keep the size field equal to the encoded body length.", "quantifier": "all groups, all chunks", "why_tests_cant": "unbounded histories", "anchors": ["src/libiff/group.c: IFF_addToGroup IFF_incrementChunkSize", "src/libiff/list.c: IFF_addPropToList IFF_addToList"]}
{"id": "C42", "title": "Size arithmetic overflow when adding chunks", "statement": "Size bookkeeping is exact as long as the true size is below 2^31. Refuted beyond: adding two chunks whose sizes sum to more than 2^31 yields a negative or wrapped size field, or undefined behaviour.", "quantifier": "all sizes", "why_tests_cant": "gigabyte inputs", "anchors": ["src/libiff/group.c: IFF_incrementChunkSize"]}
{"id": "C43", "title": "CAT contents type maintenance", "statement": "After adding FORM, CAT and LIST chunks with IFF_addToCATAndUpdateContentsType to an empty CAT the contents type is the common type of all its chunks if they agree and JJJJ otherwise.", "quantifier": "all sequences of additions", "why_tests_cant": "unbounded histories", "anchors": ["src/libiff/cat.c: IFF_updateContentsType IFF_addToCATAndUpdateContentsType"]}
{"id": "C44", "title": "Joining files produces a valid CAT", "statement": "If iffjoin succeeds, its output file is a valid CAT: reading it back gives a tree that passes IFF_check.", "quantifier": "all lists of input files", "why_tests_cant": "unbounded inputs", "anchors": ["src/iffjoin/join.c: IFF_join"]}
{"id": "C45", "title": "Joining preserves content and order", "statement": "The CAT written by iffjoin contains exactly the trees of the input files in the order given. Behind the header of the CAT are the bytes of the files' chunks, one after the other, each of its old length, with zero pad bytes and PROPs in front as in C59, so that files in the canonical form are copied unchanged.", "quantifier": "all lists of input files", "why_tests_cant": "unbounded inputs", "anchors": ["src/iffjoin/join.c: IFF_join"]}
{"id": "C46", "title": "Joining does not write on invalid input", "statement": "If any input is unreadable or invalid, iffjoin fails and leaves the output file untouched.", "quantifier": "all lists of input files with any invalid member", "why_tests_cant": "all combinations", "anchors": ["src/iffjoin/join.c: IFF_join"]}
{"id": "C47", "title": "iffpp exit status", "statement": "iffpp succeeds exactly when the input can be read and (unless checking is disabled) passes IFF_check.", "quantifier": "all inputs, all options", "why_tests_cant": "all inputs", "anchors": ["src/iffpp/pp.c: IFF_prettyPrint"]}
{"id": "C48", "title": "Pretty printed data is complete", "statement": "The hex dump printed for a data chunk determines its bytes; a TEXT chunk's text is printed verbatim.", "quantifier": "all data chunks", "why_tests_cant": "all byte strings", "anchors": ["src/libiff/rawchunk.c: IFF_printRaw IFF_printText IFF_printRawChunk"]}
{"id": "C49", "title": "Printing is total on read results", "statement": "IFF_print on any tree returned by IFF_read terminates without undefined behaviour.", "quantifier": "all inputs", "why_tests_cant": "all inputs", "anchors": ["src/libiff/iff.c: IFF_print", "src/libiff/chunk.c: IFF_printChunk", "src/libiff/group.c: IFF_printGroup"]}
{"id": "C50", "title": "Freeing releases every allocation exactly once", "statement": "IFF_free on a tree built by reading releases every block allocated for the tree exactly once and touches nothing else.", "quantifier": "all trees, all heaps", "why_tests_cant": "leaks and double frees depend on the whole heap history", "anchors": ["src/libiff/chunk.c: IFF_freeChunk", "src/libiff/group.c: IFF_freeGroup", "src/libiff/list.c: IFF_freeList", "src/libiff/rawchunk.c: IFF_freeRawChunk"]}
{"id": "C51", "title": "Failed reads leak nothing", "statement": "When IFF_read fails on any input at any point, every block it allocated has been released.", "quantifier": "all byte strings, all failure points", "why_tests_cant": "error paths at every byte", "anchors": ["src/libiff/chunk.c: IFF_readChunkBody", "src/libiff/group.c", "src/libiff/list.c"]}
{"id": "C52", "title": "Parent pointers are right", "statement": "In a tree returned by read every chunk's parent pointer designates the group containing it and the root's is NULL.", "quantifier": "all byte strings", "why_tests_cant": "all inputs", "anchors": ["src/libiff/group.c: IFF_attachToGroup", "src/libiff/list.c: IFF_addPropToList", "src/libiff/chunk.c: IFF_createChunk"]}
{"id": "C53", "title": "Attaching a chunk twice is a double free", "statement": "Adding the same chunk to two groups and freeing both is a double free (refutes that add/free sequences are always safe).", "quantifier": "an API call sequence", "why_tests_cant": "no test does this", "anchors": ["src/libiff/group.c: IFF_attachToGroup IFF_freeGroup"]}
{"id": "C54", "title": "Known leaks", "statement": "IFF_join leaks the read chunk when its check fails; IFF_setRawChunkData leaks the previous data (refutation of leak freedom).", "quantifier": "API call sequences", "why_tests_cant": "leaks are invisible in outputs", "anchors": ["src/iffjoin/join.c: IFF_join", "src/libiff/rawchunk.c: IFF_setRawChunkData IFF_setTextData"]}
{"id": "C55", "title": "Extension chunks tolerate shorter and longer versions", "statement": "A field-list extension chunk whose size covers only some of its fields is read with exactly those fields, extra bytes after known fields are skipped, and writing it again keeps the declared length (with zero fill).", "quantifier": "all field lists, all sizes, all values", "why_tests_cant": "all combinations of sizes and field lists", "anchors": ["src/libiff/field.c", "src/libiff/io.c: IFF_skipUnknownBytes IFF_writeZeroFillerBytes", "tests/hello.c", "tests/bye.c"]}
{"id": "C56", "title": "Truncation inside skipped extension bytes is not detected", "statement": "Truncated files are rejected for extension registries too. Refuted: skipping seeks past the end of a seekable file. Holds on unseekable streams.", "quantifier": "all files, all registries", "why_tests_cant": "depends on seek semantics", "anchors": ["src/libiff/io.c: IFF_skipUnknownBytes"]}
{"id": "C57", "title": "Allocation failure is handled", "statement": "If an allocation fails while reading, reading returns NULL cleanly. Refuted for growing a group's chunk array (unchecked realloc); proved for creating chunks.", "quantifier": "all allocation failure schedules", "why_tests_cant": "all failure points", "anchors": ["src/libiff/group.c: IFF_attachToGroup", "src/libiff/rawchunk.c: IFF_createRawChunk", "src/libiff/chunk.c: IFF_createChunk"]}
{"id": "C58", "title": "Strict ISO C conformance of the byte swapping and diagnostics", "statement": "No operation relies on behaviour undefined in ISO C. Refuted: signed left shift into the sign bit in IFF_readLong/IFF_writeLong on little-endian hosts and printf conversions with mismatching argument types.", "quantifier": "all values, both hosts", "why_tests_cant": "compilers usually do the expected thing", "anchors": ["src/libiff/io.c: IFF_readLong IFF_writeLong", "src/libiff/group.c: IFF_readGroupSubChunks"]}
{"id": "C59", "title": "Reading normalises and is then stable", "statement": "Whatever file was read, writing the result and reading it again gives the same tree, if it passed IFF_check. The file that is written has the length of the one that was read and differs from it in two ways only: pad bytes are zero, and in every LIST the PROPs stand in front of the other members, both in their old order; what followed the chunk is gone. It is the same file exactly if the old one was in the canonical form.", "quantifier": "all byte strings that read to a checked tree", "why_tests_cant": "all inputs", "anchors": ["src/libiff/list.c", "src/libiff/iff.c"]}
{"id": "C60", "title": "Serialisation is unambiguous", "statement": "Two different well-formed trees never have the same encoding, and no encoding is a strict prefix of another.", "quantifier": "all pairs of well-formed trees", "why_tests_cant": "unbounded trees", "anchors": ["src/libiff/chunk.c"]}
{"id": "C61", "title": "Writing, checking, printing and comparing only look", "statement": "IFF_write, IFF_check, IFF_print and IFF_compare change no block of memory, whatever memory holds, and their results depend on the tree and not on where its blocks lie.", "quantifier": "all heaps (valid trees or not), all registries, streams and hosts", "why_tests_cant": "a stray write is invisible to a test that does not look at that block", "anchors": ["src/libiff/iff.c: IFF_writeFd IFF_check IFF_print IFF_compare"]}
{"id": "C62", "title": "The tools release what they allocate", "statement": "iffpp leaves no block allocated, whatever the input, the options and the results of malloc; iffjoin leaves none when it succeeds. Both compute on the heap what they compute on trees.", "quantifier": "all inputs, options, file systems, heaps, allocation failures", "why_tests_cant": "leaks do not show in outputs", "anchors": ["src/iffpp/pp.c: IFF_prettyPrint", "src/iffjoin/join.c: IFF_join"]}
{"id": "C63", "title": "Updating sizes follows the parent pointers and touches nothing else", "statement": "IFF_updateChunkSizes called on any chunk of a tree in memory computes the sizes of the chunk and of everything that encloses it; it allocates and releases nothing and changes no field but sizes, on the chunks its parent pointers lead to. It returns exactly when those pointers end: a chunk that was added to itself makes it run forever.", "quantifier": "all heaps, trees and positions in them", "why_tests_cant": "the set of blocks that must not change is unbounded; non-termination cannot be observed", "anchors": ["src/libiff/chunk.c: IFF_updateChunkSizes", "src/libiff/group.c: IFF_updateGroupChunkSizes", "src/libiff/list.c: IFF_updateListChunkSizes"]}
{"id": "C64", "title": "Lookups return the right chunk itself", "statement": "IFF_getChunkFromForm, called with a pointer to a FORM anywhere in a tree in memory, returns a pointer to the chunk that applies: the first member of the ID, else the shared one of the innermost enclosing LIST, else NULL, and modifies nothing. IFF_getChunksFromForm returns an array of pointers to all members of the ID, in order, in one new block.", "quantifier": "all heaps, trees, positions, IDs", "why_tests_cant": "unbounded nesting; identity of the returned pointers", "anchors": ["src/libiff/form.c: IFF_getChunkFromForm IFF_getChunksFromForm", "src/libiff/chunk.c", "src/libiff/list.c: IFF_getPropFromList"]}
{"id": "C65", "title": "Searching returns pointers into the tree, and what it leaks", "statement": "IFF_searchForms returns an array of pointers to the outermost FORMs of the type, in document order, without copying or changing the tree. The intermediate arrays it merges are never released: after the caller has released the result, at least one block per FORM found below the chunk stays allocated, and exactly how many is known.", "quantifier": "all heaps, trees and form types, all allocators", "why_tests_cant": "leaks are invisible to result-based tests", "anchors": ["src/libiff/iff.c: IFF_searchForms", "src/libiff/form.c: IFF_mergeFormArray IFF_searchFormsInForm", "src/libiff/group.c: IFF_searchFormsInGroup"]}
{"id": "C66", "title": "Programs that follow the ownership rules are safe and can clean up", "statement": "A program that only adds chunks it owns (and not to themselves), only frees chunks it owns, passes chunks of the right C type, and releases replaced data and result arrays itself, may make any sequence of calls with any inputs: each call returns, unless a size overflows or an allocation, of a bounded number of bytes, failed whose result the library does not look at. At any time the allocated blocks are exactly those from before, those of the trees the program owns, and its loose blocks; nothing overlaps; parent pointers are right. Once everything is freed, memory is as it was, and that point can always be reached.", "quantifier": "all sequences of calls, inputs, allocation failures and starting heaps", "why_tests_cant": "histories are unbounded; leaks, overlaps and dangling pointers are not observable by results", "anchors": ["src/libiff/chunk.c", "src/libiff/group.c", "src/libiff/form.c", "src/libiff/cat.c", "src/libiff/list.c", "src/libiff/prop.c", "src/libiff/rawchunk.c", "src/libiff/iff.c"]}
{"id": "C67", "title": "The command line of iffpp means what its usage text says", "statement": "With options in any spelling (clusters, abbreviated long names, before or behind the file name, up to --) iffpp prints the first operand, or standard input, and skips the check exactly if an option says so; --help and --version print their text, exit with 0 and read nothing; any invalid option gives the usage and 1. Every command line is one of these. The help text lists exactly the options that are understood, except that builds without getopt_long list long options they turn down. The code for Microsoft's compiler is right only if options come first.", "quantifier": "all command lines, for getopt_long, getopt and the Microsoft variant", "why_tests_cant": "command lines are unbounded", "anchors": ["src/iffpp/main.c: main printUsage printVersion"]}
{"id": "C68", "title": "The command line of iffjoin means what its usage text says", "statement": "The operands, in order, are joined into the file given by the last -o or --output-file, or to standard output; end to end, valid inputs and a writable output give status 0 and a CAT of the inputs' trees, other files being unchanged. Without operands, or with an invalid option, the status is 1 and no file is touched. The help text lists exactly the options that are understood, except that builds without getopt_long list long options they turn down. The code for Microsoft's compiler writes to a file called /o instead.", "quantifier": "all command lines, for getopt_long, getopt and the Microsoft variant", "why_tests_cant": "command lines are unbounded", "anchors": ["src/iffjoin/main.c: main printUsage printVersion", "src/iffjoin/join.c: IFF_join"]}
{"id": "C69", "title": "Running out of memory never changes a result silently", "statement": "Whatever allocations fail, at any point: reading gives the tree it gives with enough memory, or NULL and a diagnostic, or writes through the NULL pointer of an unchecked allocation - never another tree. Checking allocates nothing. Writing gives the same bytes and result, or passes an unchecked NULL buffer of zero bytes to fwrite; a tree with right sizes is written without any allocation. Building gives the same, NULL, or the NULL pointer. iffjoin and iffpp do what they do with enough memory, or exit with 1 and a message having touched no file, or crash on the NULL pointer. Refuted: the zero bytes that fill up a chunk are written from an unchecked calloc.", "quantifier": "all inputs, trees and file systems, all patterns of failing allocations", "why_tests_cant": "the patterns of failing allocations are unbounded, and tests run with enough memory", "anchors": ["src/libiff/chunk.c: IFF_readChunk IFF_createChunk", "src/libiff/group.c: IFF_attachToGroup", "src/libiff/list.c: addPropToList", "src/libiff/io.c: IFF_writeZeroFillerBytes", "src/iffjoin/join.c: IFF_join", "src/iffpp/pp.c: IFF_prettyPrint"]}
{"id": "C70", "title": "The stack an operation needs is the nesting of the tree", "statement": "The library recurses once per level of nesting. With room for n nested calls every operation does what it does with an unlimited stack, on every tree of at most n levels, and reading does so on every input of fewer than 12n-4 bytes. Reading a file successfully, freeing and printing overflow the stack exactly if the tree has more than n levels. With any stack, no operation gives a different result silently. Refuted: that some fixed stack is enough - for every n there is a file of 12(n+1) bytes that passes IFF_check and overflows it, in reading and in freeing.", "quantifier": "all inputs, trees, registries, hosts and stack sizes", "why_tests_cant": "nesting is unbounded, and tests use shallow files", "anchors": ["src/libiff/chunk.c: IFF_readChunk IFF_writeChunk IFF_checkChunk IFF_freeChunk IFF_printChunk IFF_compareChunk", "src/libiff/group.c", "src/libiff/list.c"]}
{"id": "C71", "title": "What can go wrong on a tree of the right types", "statement": "Given any tree whose structs have the types their IDs require, with any sizes and any data, whoever built it: IFF_free works; IFF_check returns a verdict, or a sum of sizes overflows, and then a size is negative or the contents of a chunk are longer than the largest int; IFF_print succeeds exactly if the data of each raw chunk covers its declared size, and otherwise reads memory that holds no data; IFF_compare of any two such trees answers or reads such memory; IFF_write returns, or does one of these, or uses the NULL of the unchecked allocation of filler bytes. None of them loops, takes a chunk for one of another type, or does anything else. This holds at any moment of any program that follows the ownership rules, for every chunk of its trees, and the program's memory is unchanged afterwards.", "quantifier": "all typed trees, registries, hosts, streams, and all reachable states of client programs", "why_tests_cant": "states of client programs are unbounded, and undefined behaviour need not show", "anchors": ["src/libiff/iff.c: IFF_check IFF_writeFd IFF_print IFF_compare IFF_free", "src/libiff/chunk.c", "src/libiff/group.c", "src/libiff/list.c", "src/libiff/rawchunk.c: IFF_writeRawChunk IFF_printRawChunk IFF_compareRawChunk IFF_createRawChunk"]}
{"id": "C72", "title": "Reading takes memory in proportion to the file", "statement": "Whatever the input, the registry and the host, and whether or not it succeeds, reading makes at most three allocations per eight bytes consumed. A tree that was read takes at most five bytes of memory (structs, pointer arrays and data) per byte consumed, nine with application chunks. A file that can be read is read just the same when every single request larger than the file (and than 64 bytes) is refused. Refuted for files that are rejected: eight bytes make the reader ask for two gigabytes.", "quantifier": "all inputs, registries, hosts and starting heaps", "why_tests_cant": "a bound over all inputs; tests use small files", "anchors": ["src/libiff/chunk.c: IFF_readChunk IFF_createChunk", "src/libiff/group.c: IFF_attachToGroup IFF_readGroup", "src/libiff/list.c: addPropToList IFF_readList", "src/libiff/rawchunk.c: IFF_createRawChunk IFF_readRawChunk"]}
{"id": "C73", "title": "Reading with an application's own chunk types", "statement": "With a registry of callbacks that read, write, check, compare, print and free the application's own structs, and that honour a stated contract (reading consumes at most the declared bytes and reports how many, and so on): whenever a file is readable without the application, reading gives exactly the same tree with the bodies of the registered chunks decoded, in the forms they are registered for and nowhere else; if one of the bodies is malformed, reading returns NULL. Sorted tables of chunk and form types give such registries; field lists and arrays (a colour map) honour the contract.", "quantifier": "all callbacks honouring the contract, types of structs, registries, inputs, hosts", "why_tests_cant": "callbacks, registries and inputs are unbounded; the tests have two field lists", "anchors": ["src/libiff/chunk.c: IFF_readChunk IFF_skipUnknownBytes", "src/libiff/chunkregistry.c: IFF_findChunkType", "src/libiff/io.c", "tests/hello.c", "tests/bye.c"]}
{"id": "C74", "title": "Writing an application's own chunk types", "statement": "Writing such a tree puts into the file the tree with the application's structs encoded and filled up with zero bytes to the declared size, and reading that back gives the same structs.", "quantifier": "all callbacks honouring the contract, trees, registries, hosts and streams", "why_tests_cant": "unbounded trees and callbacks", "anchors": ["src/libiff/chunk.c: IFF_writeChunk", "src/libiff/io.c: IFF_writeZeroFillerBytes", "src/libiff/group.c: IFF_writeGroup"]}
{"id": "C75", "title": "Checking, comparing, printing and freeing an application's own chunk types", "statement": "Such a tree passes IFF_check exactly if its encoded form does and the application accepts each of its own chunks; two trees compare equal exactly if their encoded forms do; each can be freed, and printed if its encoded form can. A tree that was read is of this kind. A document of the application in the project's tests, of any number of greetings and farewells, passes exactly if every greeting's number is between 0 and 1024.", "quantifier": "all callbacks honouring the contract, trees, registries and hosts", "why_tests_cant": "unbounded trees and callbacks", "anchors": ["src/libiff/chunk.c: IFF_checkChunk IFF_compareChunk IFF_printChunk IFF_freeChunk", "src/libiff/iff.c: IFF_check", "src/libiff/group.c"]}
{"id": "C76", "title": "Reading is safe with any callbacks that are", "statement": "Whatever the bytes and whatever the application's callbacks do, as long as these do nothing undefined themselves, only consume input and can free what they made: IFF_read ends, does nothing undefined unless an int overflows or an allocation has failed, only consumes input, and a tree it returns can be freed.", "quantifier": "all callbacks of that kind (lists of fields and arrays are), registries with a type for every chunk, inputs, hosts and allocation failures", "why_tests_cant": "unbounded inputs and arbitrary callbacks", "anchors": ["src/libiff/iff.c: IFF_readFd", "src/libiff/chunk.c: IFF_readChunk IFF_freeChunk", "src/libiff/group.c: IFF_readGroup", "src/libiff/list.c: IFF_readList", "src/libiff/chunkregistry.h: IFF_ChunkType"]}
{"id": "C77", "title": "What was read with any safe callbacks can be used", "statement": "A tree that was read with callbacks that do nothing undefined themselves can be checked, written, printed, compared with any other and freed, however much the file contradicted itself: besides an answer, only an int overflow (checking, writing) and the NULL of a failed allocation (writing) can occur. In particular no struct is taken for one of another type.", "quantifier": "all callbacks of that kind (lists of fields and arrays are), inputs, trees, hosts, allocation failures", "why_tests_cant": "unbounded inputs and arbitrary callbacks", "anchors": ["src/libiff/chunk.c: IFF_checkChunk IFF_writeChunk IFF_printChunk IFF_compareChunk IFF_freeChunk", "src/libiff/group.c", "src/libiff/list.c", "src/libiff/chunkregistry.h: IFF_ChunkType"]}
{"id": "C78", "title": "Nothing leaks when an application's chunks own memory", "statement": "If an application's own chunks keep pointers to further memory, and its functions that create, read and free them keep to their own blocks and release them, then: when IFF_read fails, memory is exactly as before, the application's blocks included; when it succeeds, exactly the blocks of the tree are new; IFF_free releases each of them once and touches no other memory; trees share no memory and can be freed in any order.", "quantifier": "all create/read/free callbacks keeping that contract (field lists and growing arrays are shown to), registries with a type for every chunk, inputs, heaps, hosts and allocation failures", "why_tests_cant": "unbounded inputs, arbitrary callbacks and every possible failing allocation", "anchors": ["src/libiff/chunk.c: IFF_readChunk IFF_freeChunk", "src/libiff/iff.c: IFF_readFd IFF_free", "src/libiff/group.c: IFF_readGroup IFF_freeGroup", "src/libiff/list.c: IFF_readList IFF_freeList", "src/libiff/rawchunk.c", "src/libiff/chunkregistry.h: IFF_ChunkType"]}
{"id": "C79", "title": "What IFF_check complains about is true", "statement": "When IFF_check rejects a tree, the text handed to the error callback is one complaint naming a rule that the tree really breaks, with the ID of the chunk concerned and, for a wrong size, the size recorded and the size computed. Trees that keep all rules get no complaint, and every tree that breaks one gets one.", "quantifier": "all trees of the chunk types of the registry, registries, hosts and error logs", "why_tests_cant": "unbounded trees and rules broken in any combination and at any depth", "anchors": ["src/libiff/iff.c: IFF_check", "src/libiff/chunk.c: IFF_checkChunk", "src/libiff/group.c: IFF_checkGroup IFF_checkGroupSubChunks", "src/libiff/form.c: IFF_checkForm IFF_checkFormType", "src/libiff/cat.c: IFF_checkCAT IFF_checkCATSubChunk", "src/libiff/list.c: IFF_checkList", "src/libiff/prop.c: IFF_checkProp", "src/libiff/id.c: IFF_checkId", "src/libiff/error.c: IFF_errorId"]}
{"id": "C80", "title": "A file that ends too early is reported where it ends", "statement": "If the file of a tree is cut anywhere, IFF_readFd returns NULL, and what it hands to the error callback names the part that is missing (an ID, a size, a group type, data, a pad byte) and the innermost chunk it is missing from; there is one such text for every place.", "quantifier": "all well-formed trees without application chunks, all places where their file may end, hosts", "why_tests_cant": "every cut position of every file", "anchors": ["src/libiff/chunk.c: IFF_readChunk", "src/libiff/io.c: IFF_readId IFF_readLong IFF_readPaddingByte", "src/libiff/rawchunk.c: IFF_readRawChunk", "src/libiff/group.c: IFF_readGroup", "src/libiff/list.c: IFF_readList", "src/libiff/error.c: IFF_readError IFF_errorId", "src/libiff/iff.c: IFF_readFd"]}
{"id": "C81", "title": "A failed write is reported with the part that failed", "statement": "If IFF_writeFd returns FALSE, the text handed to the error callback is that of one part of the file (an ID, a size, a group type, a field, the data, zero bytes filling up, a pad byte) followed by one line for each group around it: everything before that part was taken by the output and that part was not. If it returns TRUE, nothing is reported.", "quantifier": "all writable trees, registries realising an application's field lists, hosts, output buffers and places where the output takes no more", "why_tests_cant": "every failure position of every file", "anchors": ["src/libiff/chunk.c: IFF_writeChunk", "src/libiff/io.c: IFF_writeId IFF_writeLong IFF_writeZeroFillerBytes IFF_writePaddingByte", "src/libiff/rawchunk.c: IFF_writeRawChunk", "src/libiff/group.c: IFF_writeGroup IFF_writeGroupSubChunks", "src/libiff/list.c: IFF_writeList", "src/libiff/field.c", "src/libiff/error.c: IFF_writeError"]}
{"id": "C82", "title": "Using trees whose chunks own memory leaves memory as it was", "statement": "If an application's functions that write, check, print and compare its own chunks give back all memory they take meanwhile, then IFF_writeFd, IFF_check, IFF_print and IFF_compare leave exactly the same blocks allocated with the same contents, for every tree that was read. So a program that reads two files, uses the trees in any way and order, and frees them leaks nothing.", "quantifier": "all callbacks keeping that contract (field lists and copied arrays are shown to), registries in which groups are groups, trees, heaps, hosts, outputs, allocation failures and sequences of operations", "why_tests_cant": "unbounded trees and sequences of operations, arbitrary callbacks and every possible failing allocation or write", "anchors": ["src/libiff/iff.c: IFF_writeFd IFF_check IFF_print IFF_compare", "src/libiff/chunk.c", "src/libiff/group.c", "src/libiff/list.c", "src/libiff/rawchunk.c", "src/libiff/chunkregistry.h: IFF_ChunkType"]}
{"id": "C83", "title": "Groups can be created with their final size or grown", "statement": "Every creating function returns a group of the kind its name says, with the size and type it was given and no members, or NULL if memory is short, and does nothing else. Creating a group with its final size and attaching members gives the same tree as creating an empty one and adding them, for all four kinds of group and for a LIST's properties.", "quantifier": "all sizes, types, member lists and hosts", "why_tests_cant": "unbounded member lists; tests build one tree in one way", "anchors": ["src/libiff/form.c: IFF_createForm IFF_createEmptyForm", "src/libiff/cat.c: IFF_createCAT IFF_createEmptyCATWithContentsType IFF_createEmptyCAT", "src/libiff/list.c: IFF_createList IFF_createEmptyListWithContentsType IFF_createEmptyList IFF_addPropToList", "src/libiff/prop.c: IFF_createProp IFF_createEmptyProp", "src/libiff/group.c: IFF_createGroup IFF_attachToGroup IFF_addToGroup"]}
{"id": "C84", "title": "What is in memory is what the file says", "statement": "If an application's functions do in memory what its format says they do to values, then after IFF_readFd the new blocks of memory hold exactly the tree that the file describes, application structs and their own blocks included, and hold no other. IFF_writeFd, IFF_check, IFF_print and IFF_compare then give, for trees in memory, the same results, bytes and messages as for the values they hold; a file written from memory and read again shows the same tree; and IFF_free releases exactly its blocks.", "quantifier": "all callbacks keeping that contract (field lists and growing arrays are shown to), registries, inputs, heaps, hosts, outputs and allocation failures", "why_tests_cant": "unbounded trees, arbitrary callbacks and memory contents; tests look at a few fields of a few trees", "anchors": ["src/libiff/iff.c: IFF_readFd IFF_writeFd IFF_check IFF_print IFF_compare IFF_free", "src/libiff/chunk.c", "src/libiff/group.c", "src/libiff/list.c", "src/libiff/rawchunk.c", "src/libiff/chunkregistry.h: IFF_ChunkType"]}
{"id": "C85", "title": "Reading from a pipe is reading from a file", "statement": "IFF_readFd on a stream that cannot be repositioned, such as a pipe, gives the same result and the same messages as on a file with the same bytes, unless bytes behind the fields of an application's chunk have to be skipped: then it fails and says so, and never returns a different tree. Without application chunks it is always the same; so iffpp prints the same for standard input as for a file.", "quantifier": "all inputs, registries of field lists, hosts and error logs", "why_tests_cant": "every input, on two kinds of stream; tests read files", "anchors": ["src/libiff/iff.c: IFF_readFd IFF_read", "src/libiff/io.c: IFF_skipUnknownBytes", "src/libiff/chunk.c: IFF_readChunk", "src/iffpp/pp.c: IFF_prettyPrint"]}
{"id": "C86", "title": "What the tools leave behind when they have ended", "statement": "When iffpp ends with status 0, standard output has received the text of the tree read, as far as the device took it; with status 1, nothing was printed and a message is on standard error. Neither tool fails silently: the status is 0 or 1, and with 1 something is on standard error, unless the command line is invalid. What iffjoin sends to standard output is the joined file up to where the device is full, so a reader behind a pipe gets the CAT of the inputs or reports an error; and iffjoin to a pipe and to a file give the same status, messages and bytes, so that iffpp behind the pipe ends as iffpp on the file does.", "quantifier": "all command lines, builds, inputs, hosts, stream buffers and devices that take only part of the output", "why_tests_cant": "all inputs, all places where output stops, and pairs of processes", "anchors": ["src/iffpp/main.c: main", "src/iffpp/pp.c: IFF_prettyPrint", "src/iffjoin/main.c: main", "src/iffjoin/join.c: IFF_join", "src/libiff/iff.c: IFF_read IFF_write"]}
{"id": "C87", "title": "The printed text follows a fixed layout", "statement": "IFF_print prints one paragraph per chunk: the ID, the size in decimal, then the text verbatim, the bytes in hexadecimal with ten per line, one line per field of an application's chunk, or the type and the members in brackets one level deeper. Every line is indented by two spaces per level, and for each tree there is exactly one such text. Every tree that IFF_readFd returns, and everything iffpp prints with status 0, has this layout.", "quantifier": "all trees of the chunk types of a registry whose data chunks have their data, registries of field lists, indentation levels; all command lines and inputs of iffpp", "why_tests_cant": "unbounded trees, sizes, data and depths", "anchors": ["src/libiff/iff.c: IFF_print", "src/libiff/chunk.c: IFF_printChunk", "src/libiff/group.c: IFF_printGroup IFF_printGroupType IFF_printGroupSubChunks", "src/libiff/list.c: IFF_printList", "src/libiff/rawchunk.c: IFF_printText IFF_printRaw IFF_printRawChunk", "src/libiff/id.c: IFF_printId", "src/libiff/util.c: IFF_printIndent", "src/iffpp/pp.c: IFF_prettyPrint"]}
{"id": "C88", "title": "Whether malloc(0) returns NULL only matters to empty chunks", "statement": "C lets malloc(0) return NULL. On a host that does, IFF_readFd returns the same tree as on one that does not if no data chunk in the file is empty; if one is, it returns NULL and reports an error, although the file is valid, IFF_createRawChunk with size 0 returns NULL, and iffpp prints nothing and ends with 1.", "quantifier": "all inputs, registries of field lists, positions of empty chunks in the tree, hosts", "why_tests_cant": "a test runs on one host", "anchors": ["src/libiff/rawchunk.c: IFF_createRawChunk", "src/libiff/chunk.c: readChunkBody IFF_readChunk", "src/libiff/iff.c: IFF_readFd", "src/iffpp/pp.c: IFF_prettyPrint"]}
{"id": "C89", "title": "Standard streams that translate line ends", "statement": "The library reads standard input and writes standard output in whatever mode the host opens them, and files in binary mode. Where that is text mode (Microsoft's C library), joined output sent through a pipe to a reader arrives as it was sent exactly when it has no control-Z; iffpp does with its standard input what it does with the file if the file has no control-Z and no carriage return before a line feed; output is unchanged exactly when it has no line feed. Otherwise valid files are rejected, and redirected output is read as another tree.", "quantifier": "all byte strings, all inputs of iffjoin and iffpp, all hosts", "why_tests_cant": "the repository's tests run on POSIX, and few byte strings show it", "anchors": ["src/libiff/iff.c: IFF_read IFF_write IFF_readFile IFF_writeFile", "src/iffjoin/join.c: IFF_join", "src/iffpp/pp.c: IFF_prettyPrint"]}
{"id": "C90", "title": "Programs that share memory do not disturb each other", "statement": "Whatever sequence of calls a program makes on trees it reads, builds, changes, searches and releases, with the library's own chunk kinds or with those it registers, the pointers it holds stand for the trees the calls describe, every answer is the one for those trees, and nothing else in memory changes. If several programs with their own variables, streams and registries take turns, in any order, each gets the answers, output and diagnostics it would get alone, no two variables share memory, and undefined behaviour appears only if it appears in one of them alone.", "quantifier": "all lists of calls on all variables and places in trees, all registries with structs of number fields, all interleavings of any number of programs, all initial memories, inputs and patterns of failing allocations", "why_tests_cant": "tests make a few calls in one order; the interleavings of two programs alone grow exponentially", "anchors": ["src/libiff/iff.h: IFF_readFd IFF_writeFd IFF_free IFF_check IFF_print IFF_compare", "src/libiff/form.h: IFF_addToForm IFF_getChunkFromForm IFF_getChunksFromForm", "src/libiff/cat.h: IFF_addToCATAndUpdateContentsType", "src/libiff/list.h: IFF_addPropToList", "src/libiff/rawchunk.h: IFF_setTextData IFF_setRawChunkData IFF_copyDataToRawChunkData", "src/libiff/group.h: IFF_updateChunkSizes IFF_searchFormsFromArray"]}
{"id": "C91", "title": "Where the allocator puts blocks makes no difference", "statement": "The allocator may put a block anywhere where nothing is allocated: behind everything, or into space released before, also when an array grows. Whatever it chooses, and whatever else is in memory, a program gets the same answers, the same output and the same diagnostics, its variables stand for the same trees, and it meets undefined behaviour exactly when it does with another allocator; the same holds for several programs that take turns.", "quantifier": "all allocators, all registries with structs of number fields, all pairs of initial memories, all lists of calls on all variables, all interleavings, all byte orders", "why_tests_cant": "a test runs with the one allocator of its C library, which may hide a use of released memory or never reuse an address", "anchors": ["src/libiff/chunk.c: IFF_createChunk IFF_freeChunk", "src/libiff/group.c: IFF_addToGroup IFF_freeGroup", "src/libiff/rawchunk.c: IFF_createRawChunk IFF_setTextData IFF_freeRawChunk", "src/libiff/list.c: IFF_addPropToList", "src/libiff/iff.c: IFF_readFd IFF_free"]}
{"id": "C92", "title": "Threads may be inside the library at the same time", "statement": "Several threads use the library on chunk trees of their own, without locks. Their calls may overlap in time in any way, access to memory by access to memory. If every thread's program is fine on its own, then together nothing undefined happens; a thread that finishes has the answers, the output, the diagnostics and the trees it has when it runs alone; no two threads are ever about to access the same block, nor one that was there before; and a thread whose turn comes again and again finishes.", "quantifier": "all schedules of single memory accesses, all numbers of threads, all lists of calls of each, all ways to take the calls apart into accesses, all registries with structs of number fields, all places for blocks, all initial memories", "why_tests_cant": "a test sees a handful of schedules, and data races show up only in rare ones", "anchors": ["src/libiff/iff.c: IFF_readFd IFF_writeFd IFF_free IFF_check IFF_print IFF_compare", "src/libiff/chunk.c: IFF_readChunk IFF_writeChunk IFF_freeChunk", "src/libiff/group.c: IFF_addToGroup IFF_updateChunkSizes IFF_searchFormsFromArray", "src/libiff/form.c: IFF_getChunkFromForm IFF_getChunksFromForm", "src/libiff/rawchunk.c: IFF_setTextData IFF_setRawChunkData"]}
{"id": "C93", "title": "Several threads may look at the same trees at the same time", "statement": "A program builds or reads chunk trees. Then any number of threads search these trees, write, check, print and compare them, at the same time and without locks, while other threads use the library on trees of their own. Nothing undefined happens, the shared trees stay as they are, every thread that finishes has the answers, the output and the diagnostics it has when it runs alone, a block that one thread is about to change was not there before and no other thread is about to access it, and every thread whose turn comes again and again finishes. If one of the threads changes a shared tree instead of only looking at it, this is lost: shown with a thread that prints a tree while another releases it.", "quantifier": "all schedules of single memory accesses, all preparing programs, all numbers of onlookers and of other threads, all lists of calls of each, all registries with structs of number fields, all places for blocks", "why_tests_cant": "a function that only looks may still write, for instance to cache something; a test with threads sees only a handful of schedules", "anchors": ["src/libiff/iff.c: IFF_writeFd IFF_check IFF_print IFF_compare", "src/libiff/chunk.c: IFF_writeChunk IFF_checkChunk IFF_printChunk IFF_compareChunk", "src/libiff/group.c: IFF_searchFormsFromArray", "src/libiff/form.c: IFF_getChunkFromForm IFF_getChunksFromForm"]}
{"id": "C94", "title": "Calls take work in proportion to what they are given: bytes read, blocks released, chunks looked at", "statement": "Whatever the bytes are, a call that reads a file does at most 11 things (accesses to memory, calls of the C library, messages) for every byte it reads, and 10 more, whether it succeeds or not: no small file keeps the reader busy, and no file makes it loop. Releasing a tree takes at most 7 accesses for every block released; writing, checking, printing and comparing take at most 52 for every chunk of the tree. So reading a stream, checking and printing what is in it and releasing it again, as iffpp does, takes at most 24 things for every byte of the stream, and 12 more. This does not hold for the pointers that realloc may have to copy: the array of a group is enlarged by one element at a time, so a file of 12 + 8k bytes can cost k(k+1)/2 of them. Searching a tree for FORMs takes at most 9 accesses for every chunk, and if n FORMs are found copies at most 2n pointers for every chunk, but it too can copy k(k+1)/2 pointers for a CAT of k FORMs; collecting the m chunks of a FORM with an ID takes at most 5 accesses for every chunk and m(m+1)/2 pointers. Bringing the sizes up to date from any chunk of a tree upwards takes at most 12 accesses for every chunk of the tree, and looking for a chunk of a FORM, with the PROPs of all the LISTs around it, at most 9, however deep the tree is. Adding a chunk to a group or a PROP to a LIST takes at most 12 accesses, 15 if the contents type of a CAT is kept up to date, however large the group is; adding k chunks to a group of n copies exactly k(2n+k+1)/2 pointers.", "quantifier": "all inputs, well-formed or not, all trees, all memory contents and places for blocks, all outcomes of malloc, all sizes k", "why_tests_cant": "the worst case is a specially made file; running time on a few files says nothing about it", "anchors": ["src/libiff/iff.c: IFF_readFd IFF_free IFF_writeFd IFF_check IFF_print IFF_compare", "src/libiff/chunk.c: IFF_readChunk IFF_freeChunk IFF_writeChunk IFF_checkChunk IFF_printChunk IFF_compareChunk", "src/libiff/group.c: IFF_readGroupSubChunks IFF_addToGroup IFF_freeGroup", "src/libiff/list.c: readListSubChunks IFF_addPropToList IFF_freeList", "src/libiff/group.c: IFF_searchFormsFromArray IFF_searchForms IFF_searchFormsInGroup", "src/libiff/form.c: IFF_mergeFormArray IFF_searchFormsInForm IFF_getChunksFromForm IFF_getChunkFromForm IFF_getDataChunkFromForm", "src/libiff/group.c: IFF_updateChunkSizes IFF_incrementChunkSize", "src/libiff/list.c: IFF_getPropFromList", "src/libiff/prop.c: IFF_updatePropChunkSizes"]}
{"id": "C95", "title": "Threads that share one standard error lose no diagnostics; but their lines may be mixed", "statement": "Several threads use the library at the same time, and the error callback is the default one, which prints on the process's standard error. In whatever order their calls overlap, what one thread prints there is, piece by piece and in order, what it prints alone: nothing is lost, nothing is added, nothing is repeated. Lines are not kept together: a message is printed in up to six pieces (chunk IDs character by character), between which other threads may print, so that a line on standard error need not be a line any thread printed. Shown with two threads reading two broken files.", "quantifier": "all numbers of threads and all programs, all schedules of their single accesses and calls of the C library, all placements of blocks, all inputs", "why_tests_cant": "schedules under which two failing threads print at the same time are rare and cannot be chosen by a test", "anchors": ["src/libiff/error.c: IFF_errorCallbackStderr IFF_errorCallback IFF_error IFF_errorId IFF_readError IFF_writeError", "src/libiff/iff.c: IFF_readFd IFF_check"]}
{"id": "C96", "title": "Saving over an existing file", "statement": "Writing a tree to a file that is there already empties it first. From then on nothing of the old contents remains, whatever they were. Whenever the device stops taking bytes, or the machine crashes, the file holds the first so many bytes of the new encoding, all other files are as they were, and a later read returns the new tree or reports a failure, never a third tree. Saving is not all or nothing: there are cases in which neither the old nor the new tree can be read afterwards, some with a success returned. iffjoin reads all its inputs before it opens the output, so an input may be the output if the device has room; on a full device that input is lost, without a message.", "quantifier": "all trees, all old contents, all points at which the device stops taking bytes, all buffer sizes, all lists of inputs", "why_tests_cant": "a crash or a full disk happens at one of very many points, and a test would have to stop the device there", "anchors": ["src/libiff/iff.c: IFF_writeFile IFF_write IFF_readFile IFF_read", "src/iffjoin/join.c: IFF_join"]}
{"id": "C97", "title": "How much text printing takes", "statement": "With the library's own chunk kinds, the text of a tree that was read from n bytes has at most n * (8 + 2 * (level + depth)) characters, and a tree cannot be deeper than (n + 4) / 12; so iffpp prints at most n * (n + 52) / 6 characters for a file or a standard input of n bytes. The text is not in proportion to the file: for every k a file of 12 (k + 1) bytes exists whose text has at least 6 k^2 characters, because of the indentation.", "quantifier": "all inputs, well-formed or not, all trees, all indentation levels, all sizes k", "why_tests_cant": "the worst case is a specially made file; the text of a few files says nothing about it", "anchors": ["src/libiff/iff.c: IFF_print", "src/libiff/chunk.c: IFF_printChunk", "src/libiff/util.c: IFF_printIndent", "src/libiff/rawchunk.c: IFF_printRawChunk IFF_printText", "src/libiff/group.c: IFF_printGroup", "src/libiff/list.c: IFF_printList", "src/iffpp/pp.c: IFF_prettyPrint"]}
{"id": "C98", "title": "Several trees in one stream", "statement": "Trees written to the same stream one after another follow each other without gaps. They cannot be read back like that: IFF_readFd takes one byte behind the chunk to see whether there is any, and does not give it back, so the next call begins at the second byte of the next tree. For all trees whose second one is a FORM, CAT, LIST or PROP smaller than 8 MiB that call fails, and says so; if more follows it may even return a tree nobody wrote. With one byte of any value after each tree, all are read in order and the stream stands right behind the last such byte.", "quantifier": "all lists of trees, all bytes between them, whatever follows, all hosts with a size_t of at least 32 bits", "why_tests_cant": "tests read one tree from a file", "anchors": ["src/libiff/iff.c: IFF_readFd IFF_writeFd", "src/libiff/chunk.c: IFF_readChunk"]}
{"id": "C99", "title": "Damaged data stays where it is; damaged sizes do not", "statement": "If any number of bytes in the data of data chunks are changed in any way, the file is read without a message as the same tree, but for exactly those bytes: no other chunk is affected. IFF_check says of it what it says of the original, and IFF_compare tells the two apart. This does not hold for sizes: one bit of the size of a data chunk is enough to make a file that is read without a message as a tree with other chunks, which passes IFF_check.", "quantifier": "all well-formed trees, all sets of damaged data bytes and all new values, all hosts", "why_tests_cant": "there are too many sets of bytes to damage", "anchors": ["src/libiff/iff.c: IFF_readFd IFF_check IFF_compare", "src/libiff/rawchunk.c: IFF_readRawChunk IFF_compareRawChunk", "src/libiff/group.c: IFF_readGroupSubChunks"]}
{"id": "C100", "title": "Editing a chunk changes the file there, and in the sizes of the groups around it, only", "statement": "A program reads a valid file, gives one of its data chunks, wherever it is, other contents of any length (IFF_setRawChunkData), updates the sizes (IFF_updateChunkSizes), checks and writes. As long as everything fits, all of this succeeds, IFF_check finds the edited tree valid, and the new file is the old file with the chunk replaced: the bytes behind it are the same; the bytes before it are as many as they were, and the same but for the size fields of the groups the chunk is in. All other chunks are what they were, reading the new file gives the edited tree, and putting the old contents back gives the old file. Likewise a program that makes a data chunk (IFF_createRawChunk) and adds it to a FORM of the file, wherever that is: all of it succeeds, and the new file is the old file with the chunk inserted at the end of the FORM, and other sizes for that FORM and the groups around it. A program that forgets to update the sizes is not protected: IFF_writeFd reports success, and the file can read back as a valid tree from which chunks are missing.", "quantifier": "all valid files, all data chunks at any depth, all old and new contents of any length, all FORMs at any depth to add a chunk to, all memory contents before, all hosts", "why_tests_cant": "the sizes along every path and every change of length, odd or even, must come out right at once; tests try a few trees", "anchors": ["src/libiff/rawchunk.c: IFF_setRawChunkData IFF_createRawChunk", "src/libiff/chunk.c: IFF_updateChunkSizes", "src/libiff/form.c: IFF_addToForm", "src/libiff/group.c: IFF_updateGroupChunkSizes", "src/libiff/list.c: IFF_updateListChunkSizes", "src/libiff/iff.c: IFF_readFd IFF_check IFF_writeFd IFF_free"]}
{"id": "C101", "title": "Files can be taken apart and put together", "statement": "A FORM, CAT or LIST inside a valid file, at any depth, is stored there just as it would be in a file of its own: the bytes cut out of the file are a valid file that reads back as that chunk, and writing the chunk from inside the tree, through a pointer to it, produces these bytes and leaves the tree alone. So the FORMs that IFF_searchForms finds can be written one by one, and each is a piece of the file. All this holds too if the application has chunk types of its own, as long as it reads and writes the parts with the same chunk types. Joining valid files in the form the library writes them gives 12 bytes followed by the files one after the other; so joining the members of a CAT gives the CAT back, byte for byte, if its contents type is the one that iffjoin chooses. If it is not, it was JJJJ, and only the contents type changes: a CAT of type JJJJ whose members are all alike does not come back unchanged. Taking apart can lose something: what a FORM shares with others through the PROPs of a LIST around it is not in it, and lookups in the FORM taken out of the file no longer find it. Without LISTs around it they find what they found.", "quantifier": "all valid files, all groups in them at any depth, all FORM types searched for, all memory contents before, all lists of files to join, all hosts", "why_tests_cant": "offsets, sizes and contents types must be right for every shape of tree; tests look at a few files", "anchors": ["src/libiff/iff.c: IFF_writeFd IFF_readFd IFF_check", "src/libiff/group.c: IFF_searchForms", "src/libiff/form.c: IFF_getChunkFromForm", "src/iffjoin/join.c: IFF_join", "src/libiff/cat.c: IFF_addToCATAndUpdateContentsType"]}
{"id": "C102", "title": "Only the chunk types of the chunks that are there matter", "statement": "What the library does with a file or a tree depends on the registry only through the chunk types it has for the chunks that occur in it. If a file is read with one registry, any other registry with the same callbacks for the chunks of the resulting tree reads it to the same tree with the same messages; and such a tree is written, checked, printed, compared and freed alike with both. In particular types for form types that do not occur in it make no difference. So the registry shown in README.md and used in the tests, whose types have no parent, is good for all documents in which no group stands in a FORM TEST: these survive being written and read. In memory too, a tree made with one registry can be used with the other, and freeing it with the other releases all its blocks and no others.", "quantifier": "all pairs of registries, all inputs, all trees, all hosts", "why_tests_cant": "pairs of registries and all files for which they agree cannot be enumerated", "anchors": ["src/libiff/chunkregistry.c: IFF_findChunkType getFormChunkTypes getChunkType", "src/libiff/chunk.c: IFF_readChunk IFF_writeChunk IFF_checkChunk IFF_freeChunk IFF_printChunk IFF_compareChunk", "src/libiff/group.c: IFF_readGroup IFF_writeGroup IFF_checkGroup IFF_freeGroup IFF_printGroup IFF_compareGroup", "src/libiff/list.c: IFF_readList IFF_writeList IFF_checkList IFF_freeList IFF_printList IFF_compareList", "tests/test.c: chunkRegistry", "README.md"]}
{"id": "C103", "title": "Programs that do not know an application's chunk types keep its documents intact", "statement": "A document that an application wrote with chunk types of its own can be read by a program that has none of them, such as iffpp and iffjoin: it gets the same tree, in which the application's chunks are data chunks with the same ID and size, without any message, and it is valid if the application's tree is. If the program writes the tree again, every byte is as the application left it, and the application reads its own tree back. Joining such documents with iffjoin does not change a byte of them, and the application, reading the result with its own chunk types, gets a CAT of the trees that were joined.", "quantifier": "all registries of chunk types made of fields, all trees of them that can be stored, all hosts for the application and for the other program, all lists of documents to join", "why_tests_cant": "tests read files with the registry they were written with; that another program may handle them must hold for every document", "anchors": ["src/libiff/iff.c: IFF_readFd IFF_writeFd IFF_check", "src/libiff/rawchunk.c: IFF_readRawChunk IFF_writeRawChunk", "src/libiff/chunkregistry.c: IFF_findChunkType", "src/iffjoin/join.c: IFF_join", "tests/hello.c: TEST_readHello TEST_writeHello", "tests/bye.c: TEST_readBye TEST_writeBye"]}
