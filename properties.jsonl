{"id": "C01", "title": "Base64 round trip", "statement": "Decoding with Base64_Decoder the text produced by Base64_Encode / Base64_Encode_Bytes gives back exactly the original bytes, and the decoder writes exactly the bytes it allocated.", "quantifier": "every byte sequence, of every length", "why_tests_cant": "the number of byte sequences is unbounded; unit tests cover a few dozen vectors and each residue class mod 3 only on samples", "anchors": ["src/base64.c:Base64_Encode", "src/base64.c:Base64_Encode_Bytes", "src/base64.c:Base64_Decoder"]}
{"id": "C02", "title": "Base64 encoder conforms to RFC 4648", "statement": "Base64_Encode_Bytes returns the RFC 4648 section 4 encoding: the bits of the input cut in 6-bit groups, each mapped to the standard alphabet, the last group zero-filled, padded with '=' to a multiple of four characters; its length is 4*ceil(n/3), and the buffer allocated for it is exactly filled (no overrun, NUL-terminated).", "quantifier": "every byte sequence, of every length", "why_tests_cant": "conformance is an equation between two functions on an infinite domain", "anchors": ["src/base64.c:Base64_Encode_Bytes", "src/base64.c:base64char", "src/base64.c:base64b16", "src/base64.c:base64b8"]}
{"id": "C03", "title": "Base64 decoder is memory safe and its result fully defined", "statement": "For every NUL-terminated input string, Base64_Decoder either returns NULL or a buffer every byte of which was written by the decoder, and it never writes outside that buffer.", "quantifier": "every C string, in particular every malformed one (attacker-controlled keys)", "why_tests_cant": "malformed inputs are unbounded; the failing ones only show under a sanitizer and only for lengths/paddings nobody tries", "anchors": ["src/base64.c:Base64_Decoder", "src/base64.c:Base64decode_len", "src/base64.c:Base64decode", "src/base64.c:numberOfBase64Characters"]}
{"id": "C04", "title": "Base64 decoder accepts canonical text only in the canonical way", "statement": "For every canonically padded base64 text, Base64_Decoder succeeds, stays in bounds and yields the RFC 4648 decoding; distinct canonical texts decode to distinct buffers (encode after decode is the identity).", "quantifier": "every canonical base64 text", "why_tests_cant": "unbounded set of texts", "anchors": ["src/base64.c:Base64_Decoder"]}
{"id": "C05", "title": "URL encoding is reversible and URL-safe", "statement": "URL_EncodeString yields a string made only of unreserved characters and %-escapes with two lowercase hex digits; percent-decoding it and reading the result as UTF-8 gives back the input bytes as Latin-1 code points; hence distinct inputs have distinct encodings.", "quantifier": "every C string (all 255 non-NUL byte values, any length)", "why_tests_cant": "table driven per-byte logic times unbounded strings; tests sample a few strings", "anchors": ["src/urlencode.c:URL_EncodeString", "src/urlencode.c:URL_Encode", "src/urlencode.c:URL_PrintableChar", "src/urlencode.c:URL_PrintableCharSize"]}
{"id": "C06", "title": "URL encoder sizes its output exactly", "statement": "The length computed by the measuring pass equals the number of bytes written by the emitting pass plus the terminator, so the allocated block is never overrun and the result is NUL-terminated.", "quantifier": "every C string", "why_tests_cant": "agreement of two independent passes has to hold for every byte value in every position", "anchors": ["src/urlencode.c:encode_url_data", "src/urlencode.c:URL_PrintableCharSize"]}
{"id": "C07", "title": "STRING operations behave as operations on immutable text", "statement": "Any sequence of STRING_new/construct/construct_n/new_quoted/clone/concat/concat_with_STRING/copy/copy_n/quote/empty calls leaves in every live handle exactly the text the corresponding list operations produce, always NUL-terminated, and handles never influence one another (a clone is independent).", "quantifier": "every finite history of calls on any number of handles, every allocation-failure pattern", "why_tests_cant": "histories and aliasing patterns are unbounded", "anchors": ["src/strings.c:STRING_concat", "src/strings.c:STRING_copy", "src/strings.c:STRING_copy_n", "src/strings.c:STRING_quote", "src/strings.c:STRING_clone", "src/strings.c:STRING_construct_n"]}
{"id": "C08", "title": "STRING mutators are failure atomic", "statement": "When a STRING mutator returns non-zero (invalid argument or allocation failure), every handle, including the one being mutated, has the same text as before the call.", "quantifier": "every call, every state, every allocation-failure point", "why_tests_cant": "each allocation point must be failed in every state", "anchors": ["src/strings.c:STRING_concat", "src/strings.c:STRING_quote", "src/strings.c:STRING_empty", "src/strings.c:STRING_copy_n"]}
{"id": "C09", "title": "STRING_new_JSON produces the JSON string literal of its input", "statement": "For every ASCII input STRING_new_JSON returns a syntactically valid JSON string literal (RFC 7159) which a JSON reader decodes back to the input; for an input with a byte above 127 it returns NULL; the allocated block is filled exactly.", "quantifier": "every C string", "why_tests_cant": "escaping and length counting must agree for every combination of characters", "anchors": ["src/strings.c:STRING_new_JSON"]}
{"id": "C10", "title": "STRING self-concatenation doubles the text", "statement": "STRING_concat_with_STRING(h,h) leaves h holding its former text twice, NUL-terminated.", "quantifier": "every handle content", "why_tests_cant": "aliasing case not distinguished in the code; its effect depends on overlap of the copied region", "anchors": ["src/strings.c:STRING_concat_with_STRING"]}
{"id": "C11", "title": "STRING_compare is a total order", "statement": "STRING_compare is zero exactly for equal text, antisymmetric and transitive in its sign, and agrees with lexicographic order of unsigned bytes; NULL handles are ordered after every text.", "quantifier": "every pair and triple of handles", "why_tests_cant": "order laws quantify over triples of unbounded strings", "anchors": ["src/strings.c:STRING_compare"]}
{"id": "C12", "title": "Tokenizer splits at every delimiter", "statement": "STRING_TOKENIZER_get_next_token returns successive maximal runs of characters that are not delimiters: iterated until failure it yields exactly the fields of the input split at any character of the delimiter set, with empty fields dropped.", "quantifier": "every input text and every delimiter string", "why_tests_cant": "combinations of several delimiters in every order are unbounded", "anchors": ["src/string_tokenizer.c:STRING_TOKENIZER_get_next_token"]}
{"id": "C13", "title": "Tokenizer makes progress and stays inside its text", "statement": "Every successful STRING_TOKENIZER_get_next_token call returns a non-empty contiguous piece of the input that begins with a non-delimiter, strictly advances the position, never reads outside the input text; so at most one call per input character succeeds and afterwards every call fails.", "quantifier": "every input text and every sequence of delimiter strings", "why_tests_cant": "termination for every history", "anchors": ["src/string_tokenizer.c:STRING_TOKENIZER_get_next_token"]}
{"id": "C14", "title": "Safe CRT string copies stay within the destination", "statement": "strcpy_s, strncpy_s and strcat_s never write at or beyond dstSizeInBytes; on success the destination holds the C-string result; on a size failure the destination (when its size is positive) becomes the empty string.", "quantifier": "every destination content, destination size (including 0), source string and maxCount (including _TRUNCATE)", "why_tests_cant": "boundary arithmetic over all sizes; violations are silent memory writes", "anchors": ["src/crt_abstractions.c:strcpy_s", "src/crt_abstractions.c:strncpy_s", "src/crt_abstractions.c:strcat_s"]}
{"id": "C15", "title": "Integer to text conversion is exact", "statement": "unsignedIntToString and size_tToString succeed exactly when the buffer can hold the decimal digits and the terminator; on success the buffer holds the shortest decimal representation, which reads back as the value; they never write outside the buffer.", "quantifier": "every value and every buffer size", "why_tests_cant": "2^32/2^64 values times buffer sizes", "anchors": ["src/crt_abstractions.c:unsignedIntToString", "src/crt_abstractions.c:size_tToString"]}
{"id": "C16", "title": "BUFFER operations behave as operations on byte sequences", "statement": "Any history of BUFFER_create/build/pre_build/unbuild/enlarge/append/prepend/clone/content/size calls leaves in every handle the byte sequence the corresponding list operations give; append/prepend leave the second buffer unchanged; BUFFER_length equals the length of the content; clones are independent.", "quantifier": "every finite history of calls over any number of handles, every allocation-failure pattern", "why_tests_cant": "unbounded histories and sizes", "anchors": ["src/buffer.c:BUFFER_create", "src/buffer.c:BUFFER_build", "src/buffer.c:BUFFER_unbuild", "src/buffer.c:BUFFER_append", "src/buffer.c:BUFFER_prepend", "src/buffer.c:BUFFER_enlarge", "src/buffer.c:BUFFER_clone"]}
{"id": "C17", "title": "BUFFER operations are failure atomic", "statement": "A BUFFER call that returns failure leaves the content of every buffer unchanged.", "quantifier": "every call, state and allocation-failure point", "why_tests_cant": "all failure points in all states", "anchors": ["src/buffer.c"]}
{"id": "C18", "title": "BUFFER size arithmetic does not wrap", "statement": "After a successful BUFFER_enlarge/append/prepend the reported length is the mathematical sum and the underlying block is at least that long.", "quantifier": "every pair of 64-bit sizes", "why_tests_cant": "sizes near 2^64 cannot be allocated in a test", "anchors": ["src/buffer.c:BUFFER_enlarge", "src/buffer.c:BUFFER_append", "src/buffer.c:BUFFER_prepend"]}
{"id": "C19", "title": "Singly linked list is a sequence", "statement": "Any history of list_add/list_remove keeps the list acyclic and traversable with list_get_head_item/list_get_next_item, yielding exactly the items added and not removed, in insertion order; removing an item not in the list fails and changes nothing.", "quantifier": "every finite history of add/remove, every allocation-failure pattern", "why_tests_cant": "pointer surgery must be right in every shape of list", "anchors": ["src/list.c:list_add", "src/list.c:list_remove", "src/list.c:list_get_head_item", "src/list.c:list_get_next_item"]}
{"id": "C20", "title": "list_find returns the first match", "statement": "list_find returns the first item, in traversal order, accepted by the match function, and NULL exactly if none is accepted; it changes nothing.", "quantifier": "every list and every match function", "why_tests_cant": "arbitrary predicate and list", "anchors": ["src/list.c:list_find"]}
{"id": "C21", "title": "Doubly linked list is a circular sequence", "statement": "Any history of DList_InsertHeadList/InsertTailList/RemoveEntryList/RemoveHeadList on initialised lists keeps Flink and Blink mutually inverse and circular, the sequence read forwards is the specified sequence and read backwards is its reverse; RemoveEntryList reports whether the list became empty; nodes outside the list are untouched.", "quantifier": "every finite history over any number of lists and nodes", "why_tests_cant": "pointer aliasing in every configuration", "anchors": ["src/doublylinkedlist.c"]}
{"id": "C22", "title": "Splicing doubly linked lists", "statement": "DList_AppendTailList inserts the whole ring of the appended list, in order, at the tail of the receiving list.", "quantifier": "every pair of disjoint lists", "why_tests_cant": "every shape of both rings", "anchors": ["src/doublylinkedlist.c:DList_AppendTailList"]}
{"id": "C23", "title": "VECTOR is a growable array", "statement": "Any history of VECTOR_push_back/erase/clear/element/front/back/find_if/size behaves like the corresponding operations on a sequence of fixed-size elements: push_back appends, erase removes exactly the given range and keeps the order of the rest, reads do not modify.", "quantifier": "every finite history of in-range calls, every element size, every allocation-failure pattern", "why_tests_cant": "unbounded histories", "anchors": ["src/vector.c"]}
{"id": "C24", "title": "VECTOR element access is bounds checked", "statement": "VECTOR_element(v,i) returns NULL exactly when i is not the index of an element; VECTOR_front and VECTOR_back return NULL on an empty vector.", "quantifier": "every vector and index", "why_tests_cant": "the boundary index returns a pointer that only a sanitizer would complain about", "anchors": ["src/vector.c:VECTOR_element", "src/vector.c:VECTOR_back", "src/vector.c:VECTOR_front"]}
{"id": "C25", "title": "VECTOR_erase stays in range", "statement": "VECTOR_erase never touches memory outside the elements, for any element pointer inside the vector and any count.", "quantifier": "every vector, position and count", "why_tests_cant": "needs counts beyond the end, undefined behaviour", "anchors": ["src/vector.c:VECTOR_erase"]}
{"id": "C26", "title": "Map refines a finite map with insertion order", "statement": "Any history of Map_Add/AddOrUpdate/Delete/ContainsKey/ContainsValue/GetValueFromKey/GetInternals answers exactly as an insertion-ordered finite map from C strings to C strings: Add refuses an existing key, AddOrUpdate replaces, Delete removes only the key, lookups see the latest update.", "quantifier": "every finite history of calls", "why_tests_cant": "unbounded histories; interaction of deletes with position of other keys", "anchors": ["src/map.c:Map_Add", "src/map.c:Map_AddOrUpdate", "src/map.c:Map_Delete", "src/map.c:Map_ContainsKey", "src/map.c:Map_GetValueFromKey", "src/map.c:Map_GetInternals"]}
{"id": "C27", "title": "Map never holds two entries for one key", "statement": "In every reachable map the keys are pairwise distinct and the key and value arrays have the same length as the count.", "quantifier": "every finite history, every allocation-failure pattern", "why_tests_cant": "invariant over all histories", "anchors": ["src/map.c"]}
{"id": "C28", "title": "Map operations are failure atomic", "statement": "A Map operation that does not return MAP_OK leaves the key/value content of the map unchanged, even when an allocation fails midway.", "quantifier": "every call, state and allocation-failure point", "why_tests_cant": "multi-step insertion with three allocations each able to fail", "anchors": ["src/map.c:insertNewKeyValue", "src/map.c:Map_IncreaseStorageKeysValues", "src/map.c:Map_DecreaseStorageKeysValues"]}
{"id": "C29", "title": "Map filter is never bypassed", "statement": "A map created with a filter callback never contains a pair the callback rejects, whatever calls are made on it or on a clone of it.", "quantifier": "every finite history", "why_tests_cant": "the callback must survive every code path", "anchors": ["src/map.c:Map_Create", "src/map.c:Map_Clone", "src/map.c:Map_Delete", "src/map.c:Map_DecreaseStorageKeysValues"]}
{"id": "C30", "title": "Map_Clone is an equal, independent copy", "statement": "Map_Clone yields a map with the same pairs in the same order (or fails with NULL), and later operations on either map do not affect the other.", "quantifier": "every map, every allocation-failure point", "why_tests_cant": "all sizes; all failure points", "anchors": ["src/map.c:Map_Clone", "src/map.c:Map_CloneVector"]}
{"id": "C31", "title": "Map_ToJSON is the JSON object of the map", "statement": "Map_ToJSON returns a JSON object text that a JSON reader decodes to exactly the map's pairs in order, and NULL when some key or value is not ASCII.", "quantifier": "every map content", "why_tests_cant": "unbounded content, escaping inside keys and values", "anchors": ["src/map.c:Map_ToJSON", "src/strings.c:STRING_new_JSON"]}
{"id": "C32", "title": "Reference counted constants live exactly as long as referenced", "statement": "A CONSTBUFFER or CONSTMAP is freed exactly when the last of its Create/Clone references is Destroyed, never earlier or twice, and while any reference is live its content equals the content at creation.", "quantifier": "every interleaving, by any number of threads, of Clone and Destroy calls each made by a holder of a reference, fewer than 2^32 simultaneous references", "why_tests_cant": "schedules are unbounded; a wrong schedule appears rarely", "anchors": ["src/constbuffer.c", "src/constmap.c", "inc/azure_c_shared_utility/refcount.h"]}
{"id": "C33", "title": "Reference counter does not overflow", "statement": "However many references are taken, the object is not freed while one is live.", "quantifier": "every number of clones", "why_tests_cant": "2^32 clones needed", "anchors": ["inc/azure_c_shared_utility/refcount.h", "src/constbuffer.c:CONSTBUFFER_Clone"]}
{"id": "C34", "title": "CONSTBUFFER copies its source", "statement": "CONSTBUFFER_Create/CreateFromBuffer return NULL or a handle whose content is byte for byte the source at the time of the call, for size 0 an empty content.", "quantifier": "every source, size and allocation-failure point", "why_tests_cant": "all sizes and failure points", "anchors": ["src/constbuffer.c:CONSTBUFFER_Create", "src/constbuffer.c:CONSTBUFFER_CreateFromBuffer"]}
{"id": "C35", "title": "ConstMap is a frozen snapshot of its source map", "statement": "ConstMap_Create(m) answers every later ContainsKey/ContainsValue/GetValue/GetInternals query as m would have at creation; ConstMap_CloneWriteable gives an independent map with that content.", "quantifier": "every source history before and after creation", "why_tests_cant": "later operations on the source are unbounded", "anchors": ["src/constmap.c"]}
{"id": "C36", "title": "HTTP headers only hold legal names and trimmed values", "statement": "Every header stored by HTTPHeaders_AddHeaderNameValuePair / ReplaceHeaderNameValuePair has a non-empty name of printable non-colon ASCII characters and a value without leading linear white space.", "quantifier": "every history of calls", "why_tests_cant": "all strings, all histories (header injection is a security matter)", "anchors": ["src/httpheaders.c:headers_ReplaceHeaderNameValuePair"]}
{"id": "C37", "title": "HTTP header add accumulates, replace overwrites", "statement": "Adding to an existing name makes its value 'old, new'; replacing makes it 'new'; other headers and the order of headers do not change; FindHeaderValue and GetHeader (\"name: value\") return the stored pair; failed calls change nothing.", "quantifier": "every history of calls, every allocation-failure pattern", "why_tests_cant": "unbounded histories", "anchors": ["src/httpheaders.c"]}
{"id": "C38", "title": "HTTP header values cannot inject header lines", "statement": "A value accepted by HTTPHeaders_AddHeaderNameValuePair contains no CR or LF, so GetHeader never produces more than one header line.", "quantifier": "every value string", "why_tests_cant": "attack strings are unbounded", "anchors": ["src/httpheaders.c:headers_ReplaceHeaderNameValuePair", "src/httpheaders.c:HTTPHeaders_GetHeader"]}
{"id": "C39", "title": "gballoc accounts exactly for live memory", "statement": "Between one gballoc_init and the matching gballoc_deinit, gballoc_getCurrentMemoryUsed equals the sum of the requested sizes of the blocks allocated and not freed, and gballoc_getMaximumMemoryUsed the largest value that sum ever had.", "quantifier": "every finite history of malloc/calloc/realloc/free calls, every allocation-failure pattern", "why_tests_cant": "unbounded histories, failure injection at every point", "anchors": ["src/gballoc.c"]}
{"id": "C40", "title": "gballoc accounting survives re-initialisation", "statement": "After gballoc_deinit and a new gballoc_init the current memory used still counts correctly whatever blocks are freed.", "quantifier": "every history with several init/deinit rounds", "why_tests_cant": "needs blocks outliving a deinit", "anchors": ["src/gballoc.c:gballoc_init", "src/gballoc.c:gballoc_deinit", "src/gballoc.c:gballoc_free"]}
{"id": "C41", "title": "gballoc is thread safe", "statement": "Concurrent gballoc calls keep the block list consistent: every block freed once is found.", "quantifier": "every interleaving", "why_tests_cant": "schedules", "anchors": ["src/gballoc.c:gballoc_free"]}
{"id": "C42", "title": "SHA-1 and SHA-2 digests equal FIPS 180 for any chunking", "statement": "Feeding a message to SHA1/SHA224/SHA256/SHA384/SHA512 (or USHA) Input in any number of pieces of any sizes and calling Result gives the digest FIPS 180-2 defines for the concatenated message.", "quantifier": "every message and every way of cutting it into Input calls (messages shorter than the algorithm's limit)", "why_tests_cant": "messages and cuttings unbounded; block-boundary errors appear only for particular residues", "anchors": ["src/sha1.c", "src/sha224.c", "src/sha384-512.c", "src/usha.c"]}
{"id": "C43", "title": "SHA FinalBits handles every bit length", "statement": "Appending 1 to 7 trailing bits with FinalBits gives the FIPS digest of the bit string.", "quantifier": "every message of whole bytes and every 1..7 bit tail", "why_tests_cant": "unbounded", "anchors": ["src/sha1.c:SHA1FinalBits", "src/sha224.c:SHA256FinalBits", "src/sha384-512.c:SHA512FinalBits"]}
{"id": "C44", "title": "SHA contexts reject misuse", "statement": "After Result, Input fails with shaStateError and the context stays failed; Result is repeatable and returns the same digest; NULL arguments give shaNull and change nothing.", "quantifier": "every history of calls on a context", "why_tests_cant": "histories unbounded", "anchors": ["src/sha1.c:SHA1Input", "src/sha224.c:SHA256Input", "src/sha384-512.c:SHA512Input"]}
{"id": "C45", "title": "Hashing in different contexts is independent", "statement": "Two threads hashing in two different contexts get the digests they would get alone.", "quantifier": "every interleaving", "why_tests_cant": "race on hidden shared state, rare schedule", "anchors": ["src/sha1.c:SHA1AddLength", "src/sha224.c:SHA224_256AddLength", "src/sha384-512.c:SHA384_512AddLength"]}
{"id": "C46", "title": "HMAC equals RFC 2104", "statement": "hmac and hmacReset/hmacInput*/hmacResult compute H((K' xor opad) || H((K' xor ipad) || text)) with K' the zero padded key, or the padded hash of the key if longer than a block, for any chunking of the text.", "quantifier": "every key (length below 2^31), text, hash selector and chunking", "why_tests_cant": "unbounded", "anchors": ["src/hmac.c"]}
{"id": "C47", "title": "HMACSHA256_ComputeHash returns the HMAC-SHA256 of its inputs", "statement": "HMACSHA256_ComputeHash(key,payload,hash) with non-NULL, non-empty key and payload and an empty hash buffer fills the buffer with the 32 bytes of HMAC-SHA256(key,payload); with NULL or empty arguments it returns HMACSHA256_INVALID_ARG and changes nothing.", "quantifier": "every key and payload of any size_t length, every prior content of the result buffer", "why_tests_cant": "sizes above 2^31 and all contents", "anchors": ["src/hmacsha256.c:HMACSHA256_ComputeHash"]}
{"id": "C48", "title": "SAS token has the documented form and signature", "statement": "SASToken_Create(key,scope,keyName,expiry) returns NULL or exactly 'SharedAccessSignature sr=<scope>&sig=<URL-encoded base64 HMAC-SHA256(base64-decoded key, scope \\n expiry)>&se=<expiry decimal>&skn=<keyName>'.", "quantifier": "every key, scope, key name, expiry and allocation-failure pattern", "why_tests_cant": "composition of five codecs over unbounded inputs", "anchors": ["src/sastoken.c:SASToken_Create"]}
{"id": "C49", "title": "SAS token fields can be recovered", "statement": "From a token whose scope and key name contain no '&', the scope, signature, expiry and key name are uniquely recoverable, so tokens differing in an input differ.", "quantifier": "every scope, key name, expiry, key", "why_tests_cant": "injectivity over unbounded strings", "anchors": ["src/sastoken.c:SASToken_Create", "src/urlencode.c"]}
{"id": "C50", "title": "HTTPAPIEX_ExecuteRequest terminates with few retries", "statement": "HTTPAPIEX_ExecuteRequest always returns, whatever the low-level HTTPAPI calls answer, and makes a bounded number of init, connection and request calls.", "quantifier": "every sequence of results of the low-level calls, every prior state of the handle", "why_tests_cant": "adversarial result sequences are unbounded; a livelock appears only for some", "anchors": ["src/httpapiex.c:HTTPAPIEX_ExecuteRequest"]}
{"id": "C51", "title": "HTTPAPIEX keeps low-level calls balanced", "statement": "At every return of ExecuteRequest, and after Destroy, HTTPAPI_Init/HTTPAPI_Deinit and CreateConnection/CloseConnection calls are properly nested: OK leaves exactly one init and one open connection, RECOVERYFAILED none, Destroy none; requests are only made on an open connection.", "quantifier": "every history of ExecuteRequest/Destroy and every sequence of low-level results", "why_tests_cant": "histories unbounded; leaks are invisible to a test that checks results only", "anchors": ["src/httpapiex.c:HTTPAPIEX_ExecuteRequest", "src/httpapiex.c:HTTPAPIEX_Destroy"]}
{"id": "C52", "title": "HTTPAPIEX result reflects the last attempt", "statement": "ExecuteRequest returns OK exactly if the last low-level request made returned OK, and then the status code and response are those of that request.", "quantifier": "every sequence of low-level results", "why_tests_cant": "unbounded", "anchors": ["src/httpapiex.c:HTTPAPIEX_ExecuteRequest"]}
{"id": "C53", "title": "HTTPAPIEX options are replayed on every connection", "statement": "Every option accepted by HTTPAPIEX_SetOption is applied, with its latest value, to each new connection before any request is made on it.", "quantifier": "every history of SetOption and ExecuteRequest, every sequence of low-level results", "why_tests_cant": "interleaving of options and reconnects unbounded", "anchors": ["src/httpapiex.c:HTTPAPIEX_SetOption", "src/httpapiex.c:HTTPAPIEX_ExecuteRequest", "src/httpapiex.c:createOrUpdateOption"]}
{"id": "C54", "title": "HTTPAPIEX sends Host and Content-Length", "statement": "Each request made carries exactly one Host header equal to the configured host name and one Content-Length header equal to the decimal length of the content, and the caller's other headers unchanged.", "quantifier": "every caller header set, content length, host name", "why_tests_cant": "unbounded", "anchors": ["src/httpapiex.c:buildAllRequests", "src/httpapiex.c:buildRequestHttpHeadersHandle"]}
{"id": "C55", "title": "HTTPAPIEX_SAS refreshes only an existing Authorization header", "statement": "HTTPAPIEX_SAS_ExecuteRequest always forwards the call exactly once; the headers differ from the caller's at most in the value of an Authorization header that was already present, whose new value is the SAS token for now+3600 s.", "quantifier": "every header set, time and failure pattern", "why_tests_cant": "unbounded", "anchors": ["src/httpapiexsas.c:HTTPAPIEX_SAS_ExecuteRequest"]}
{"id": "C56", "title": "xio dispatches faithfully", "statement": "xio_create refuses an interface with a missing function and otherwise each xio call invokes the corresponding concrete function exactly once with the concrete handle and the caller's arguments, and reports its result; after xio_destroy the concrete handle has been destroyed exactly once.", "quantifier": "every interface, every result of the concrete functions, every call history", "why_tests_cant": "all missing-function combinations and histories", "anchors": ["src/xio.c"]}
{"id": "C57", "title": "Socket sends preserve the byte stream", "statement": "The bytes handed to the kernel by socketio_send and socketio_dowork are, at every moment, a prefix of the concatenation of the accepted messages, nothing lost, duplicated or reordered.", "quantifier": "every history of sends and doworks, every pattern of partial and failed kernel sends", "why_tests_cant": "partial sends at every offset cannot be forced on loopback sockets", "anchors": ["adapters/socketio_berkeley.c:socketio_send", "adapters/socketio_berkeley.c:socketio_dowork"]}
{"id": "C58", "title": "Each accepted send is completed exactly once", "statement": "For each message accepted by socketio_send, its on_send_complete is called at most once, with OK only after all its bytes were handed to the kernel, in order of acceptance, and with ERROR or cancelled if the io fails or closes.", "quantifier": "every history and every kernel behaviour", "why_tests_cant": "failure timing", "anchors": ["adapters/socketio_berkeley.c:socketio_send", "adapters/socketio_berkeley.c:socketio_dowork", "adapters/socketio_berkeley.c:socketio_close"]}
{"id": "C59", "title": "Closing a socket io discards its pending data", "statement": "Nothing queued before socketio_close is sent on a connection opened later.", "quantifier": "every history with close and reopen", "why_tests_cant": "needs pending data at close", "anchors": ["adapters/socketio_berkeley.c:socketio_close"]}
{"id": "C60", "title": "Socket io state machine", "statement": "socketio_send accepts data only while the io is open; open on an already open io and (as documented) close on a closed io fail.", "quantifier": "every history", "why_tests_cant": "histories unbounded", "anchors": ["adapters/socketio_berkeley.c"]}
{"id": "C61", "title": "TLS io completes each open exactly once", "statement": "Every accepted tlsio open is followed by at most one open-complete callback, and by exactly one when the underlying io reports; after a failed open the io can be opened again.", "quantifier": "every history of calls and of underlying-io events", "why_tests_cant": "event orders unbounded", "anchors": ["src/tlsio_openssl.c"]}
{"id": "C62", "title": "UniqueId_Generate writes a well-formed UUID text", "statement": "UniqueId_Generate writes exactly 36 characters and a terminator, groups of 8-4-4-4-12 hex digits that read back as the 16 generated bytes; with a buffer shorter than 37 it returns an error and writes nothing.", "quantifier": "every 16 random bytes, every buffer size", "why_tests_cant": "2^128 values", "anchors": ["adapters/uniqueid_stub.c:UniqueId_Generate"]}
{"id": "C63", "title": "Condition timeouts are exact and valid", "statement": "Condition_Wait with a positive timeout passes an absolute time exactly timeout milliseconds after now with nanoseconds in [0,1e9); a non-positive timeout waits without limit.", "quantifier": "every current time and timeout", "why_tests_cant": "all values of two integers", "anchors": ["adapters/condition_pthreads.c:Condition_Wait"]}
{"id": "C64", "title": "ThreadAPI sleep and join preserve values", "statement": "ThreadAPI_Sleep(ms) requests exactly ms milliseconds in valid timespec form; ThreadAPI_Join delivers the int passed to ThreadAPI_Exit or returned by the thread.", "quantifier": "every millisecond count and exit code", "why_tests_cant": "2^32 values", "anchors": ["adapters/threadapi_pthreads.c"]}
{"id": "C65", "title": "HTTPAPI (curl) init/deinit counting", "statement": "curl_global_init is called on the first of nested HTTPAPI_Init calls and curl_global_cleanup on the matching last HTTPAPI_Deinit, never with users remaining.", "quantifier": "every history of Init/Deinit and results", "why_tests_cant": "histories", "anchors": ["adapters/httpapi_curl.c:HTTPAPI_Init", "adapters/httpapi_curl.c:HTTPAPI_Deinit"]}
{"id": "C66", "title": "HTTPAPI (curl) accumulates the response body", "statement": "The response buffer is the concatenation of the chunks curl delivered, or the request fails, and no memory is freed twice.", "quantifier": "every chunk sequence and allocation-failure point", "why_tests_cant": "failure at every chunk", "anchors": ["adapters/httpapi_curl.c:ContentWriteFunction"]}
{"id": "C67", "title": "HTTPAPI (curl) parses response header lines", "statement": "A response line 'name: value CRLF' adds exactly the header (name, value without leading white space); lines without colon add nothing.", "quantifier": "every line", "why_tests_cant": "unbounded", "anchors": ["adapters/httpapi_curl.c:HeadersWriteFunction"]}
{"id": "C68", "title": "Tick counter is monotone", "statement": "tickcounter_get_current_ms never decreases and counts 1000 per elapsed second since creation, provided the clock does not go backwards.", "quantifier": "every clock history", "why_tests_cant": "clock histories", "anchors": ["adapters/tickcounter_linux.c"]}
{"id": "C69", "title": "Updating a key with its own value", "statement": "Passing the string that Map_GetValueFromKey or Map_GetInternals handed out for a key back to Map_AddOrUpdate for the same key is safe and keeps the value.", "quantifier": "every key and value", "why_tests_cant": "depends on where realloc places the block", "anchors": ["src/map.c:Map_AddOrUpdate"]}
{"id": "C70", "title": "A header may be replaced by its own current value", "statement": "Passing the string returned by HTTPHeaders_FindHeaderValue(h, name) as the value of HTTPHeaders_ReplaceHeaderNameValuePair(h, name, ...) is safe and leaves the header as it was.", "quantifier": "every history, name and value", "why_tests_cant": "depends on whether realloc moves the string; all histories", "anchors": ["src/httpheaders.c:headers_ReplaceHeaderNameValuePair", "src/map.c:Map_AddOrUpdate"]}
{"id": "C71", "title": "gballoc_realloc to 0 bytes keeps the accounting right", "statement": "After gballoc_realloc(p, 0) the current memory used no longer counts the block, or the block is still allocated and can be freed once.", "quantifier": "every block and size held before the call", "why_tests_cant": "The underlying realloc is a mock in the unit tests; what the real realloc(p,0) does to a tracked block is a property of all histories.", "anchors": ["src/gballoc.c: gballoc_realloc, gballoc_free"]}
{"id": "C72", "title": "Over-long messages are reported as such", "statement": "A USHAInput that takes the message past the algorithm's maximum length returns shaInputTooLong, and no digest is given for it.", "quantifier": "every message longer than 2^64 (SHA-1, SHA-224, SHA-256) or 2^128 bits (SHA-384, SHA-512) and every way of cutting it", "why_tests_cant": "2^61 bytes of input", "anchors": ["src/sha1.c:SHA1Input", "src/sha224.c:SHA256Input", "src/sha384-512.c:SHA512Input"]}
{"id": "C73", "title": "HTTPAPIEX leaves no temporaries and touches only its objects", "statement": "Whatever the low-level calls answer and whatever allocation fails, HTTPAPIEX_ExecuteRequest frees every header and buffer object it made for absent arguments, and of the caller's live objects only the request headers, the response headers and the response buffer handed to it can differ afterwards; cloned option values are untouched.", "quantifier": "every reached state of a handle, every set of arguments (each object given or absent), every sequence of low-level results and allocation failures", "why_tests_cant": "the combinations of absent arguments, failing allocations and failing attempts are unbounded; leaks are invisible to result checks", "anchors": ["src/httpapiex.c:HTTPAPIEX_ExecuteRequest", "src/httpapiex.c:buildAllRequests"]}
{"id": "C74", "title": "Socket io owns its descriptor", "statement": "A socket io calls the kernel only on the descriptor it owns (the accepted socket it was given, or the one it opened), obtains a new descriptor only when it owns none (a failed open closes the one it got), owns one while open, and none after closing or destruction: no leak, no use after close, no double close.", "quantifier": "every configuration, history of calls and kernel behaviour", "why_tests_cant": "leaks and double closes depend on which of many system calls fails in which history", "anchors": ["adapters/socketio_berkeley.c:socketio_open", "adapters/socketio_berkeley.c:socketio_close", "adapters/socketio_berkeley.c:socketio_destroy"]}
{"id": "C75", "title": "Socket io reports received bytes and failures to the registered callbacks", "statement": "Every byte received goes at once, in order and exactly once to the bytes-received callback given to the last successful open, every failed kernel send is reported exactly once to its error callback, and neither callback is called otherwise.", "quantifier": "every history of calls, every kernel behaviour", "why_tests_cant": "all interleavings of opens, sends and receives with all kernel results", "anchors": ["adapters/socketio_berkeley.c:socketio_dowork", "adapters/socketio_berkeley.c:socketio_send"]}
{"id": "C76", "title": "socketio_dowork returns when the kernel makes progress", "statement": "If each kernel send takes at least one byte, socketio_dowork returns after at most as many kernel sends as there are queued bytes.", "quantifier": "every queue content and every pattern of partial kernel sends", "why_tests_cant": "termination over unbounded patterns of kernel answers", "anchors": ["adapters/socketio_berkeley.c:socketio_dowork"]}
{"id": "C77", "title": "A TLS io reports success of open at most once in its life", "statement": "However often a tlsio is opened and closed, the open-complete callback reports success at most once (the TLS session is never reset).", "quantifier": "every history of calls, callbacks and underlying events, every OpenSSL behaviour in which a finished handshake stays finished", "why_tests_cant": "histories of reopenings are unbounded", "anchors": ["src/tlsio_openssl.c:on_underlying_io_open_complete", "src/tlsio_openssl.c:send_handshake_bytes"]}
{"id": "C78", "title": "TLS close and send callbacks are not multiplied", "statement": "The close-complete callback is called at most once per call of tlsio close, and a send-complete callback is given to the underlying io at most once per call of tlsio send; a send that returns 0 hands everything OpenSSL wrote, the caller's data last, to the underlying io in one send with the caller's callback.", "quantifier": "every history of calls, re-entrant callbacks and underlying events", "why_tests_cant": "interleavings and re-entrancy unbounded", "anchors": ["src/tlsio_openssl.c:tlsio_openssl_close", "src/tlsio_openssl.c:tlsio_openssl_send", "src/tlsio_openssl.c:write_outgoing_bytes"]}
{"id": "C79", "title": "TLS bytes flow in order without loss", "statement": "The bytes given to the underlying io are, in order, a prefix of the bytes OpenSSL produced; the plain text passed to on_bytes_received is exactly what SSL_read gave, in order, in pieces of 1 to 64 bytes.", "quantifier": "every history and every OpenSSL behaviour", "why_tests_cant": "streams unbounded", "anchors": ["src/tlsio_openssl.c:write_outgoing_bytes", "src/tlsio_openssl.c:decode_ssl_received_bytes"]}
{"id": "C80", "title": "No application data before the TLS handshake", "statement": "Application data is never given to SSL_write unless the handshake was seen finished since the underlying io was last opened.", "quantifier": "every history, every OpenSSL behaviour, every underlying io", "why_tests_cant": "a safety property over all event orders", "anchors": ["src/tlsio_openssl.c:tlsio_openssl_send"]}
{"id": "C81", "title": "TLS create and destroy balance resources", "statement": "A successful tlsio create followed by destroy releases everything acquired, once; a failed create releases everything it acquired.", "quantifier": "every pattern of failures", "why_tests_cant": "all failure combinations", "anchors": ["src/tlsio_openssl.c:tlsio_openssl_create", "src/tlsio_openssl.c:tlsio_openssl_destroy"]}
{"id": "C82", "title": "Generated ids are marked as random UUIDs", "statement": "The text UniqueId_Generate writes carries the RFC 4122 variant (10) and version 4 in their standard places.", "quantifier": "every 16 random bytes", "why_tests_cant": "2^128 values; a test sees a few samples", "anchors": ["adapters/uniqueid_stub.c:generate128BitUUID", "adapters/uniqueid_stub.c:UniqueId_Generate"]}
{"id": "C83", "title": "No wake-up is lost", "statement": "If threads wait with Lock; while(!flag) Condition_Wait; Unlock and others set the flag under the lock and call Condition_Post (before or after Unlock), then once the posts are made no waiter stays asleep, and the threads never deadlock.", "quantifier": "every number of threads, every timeout, every schedule including spurious wake-ups", "why_tests_cant": "the schedules are unbounded and the bug windows tiny", "anchors": ["adapters/condition_pthreads.c:Condition_Post", "adapters/condition_pthreads.c:Condition_Wait", "adapters/lock_pthreads.c"]}
{"id": "C84", "title": "Locks and conditions own their memory", "statement": "A lock that cannot be created leaves no memory behind; a created one keeps its memory through any sequence of Lock, Unlock and failing Lock_Deinit calls and a Lock_Deinit that returns LOCK_OK frees it exactly once; a condition is freed exactly once by Condition_Deinit.", "quantifier": "every answer of malloc and pthreads, every history of uses", "why_tests_cant": "histories and failures", "anchors": ["adapters/lock_pthreads.c", "adapters/condition_pthreads.c"]}
{"id": "C85", "title": "ThreadAPI_Sleep lasts at least the time asked for", "statement": "ThreadAPI_Sleep(ms) does not return before ms milliseconds have passed.", "quantifier": "every ms, every arrival of signals", "why_tests_cant": "depends on when signals arrive", "anchors": ["adapters/threadapi_pthreads.c:ThreadAPI_Sleep"]}
{"id": "C86", "title": "HTTPAPI (curl) connections own their memory", "statement": "HTTPAPI_CreateConnection returns NULL with nothing left allocated, or a connection to https://<host> that can be used and that HTTPAPI_CloseConnection gives back completely.", "quantifier": "every host name, every failing allocation and failing curl_easy_init", "why_tests_cant": "failures at every point", "anchors": ["adapters/httpapi_curl.c:HTTPAPI_CreateConnection", "adapters/httpapi_curl.c:HTTPAPI_CloseConnection"]}
{"id": "C87", "title": "HTTPAPI (curl) sends exactly the request asked for", "statement": "HTTPAPI_ExecuteRequest hands libcurl either nothing or exactly once the request asked for: URL, method, header lines, body, time limits; nothing of an earlier request on the connection (headers, body, custom method) is sent again, and no memory of an earlier request is used.", "quantifier": "every history of requests on a connection, every request, every failure of curl_easy_setopt or of an allocation", "why_tests_cant": "the libcurl handle keeps state across requests: histories and failures at every option", "anchors": ["adapters/httpapi_curl.c:HTTPAPI_ExecuteRequest"]}
{"id": "C88", "title": "HTTPAPI (curl) hands over the answer", "statement": "HTTPAPI_ExecuteRequest returns HTTPAPI_OK exactly if the transfer succeeded and status and body were handed over; then *statusCode, the response headers and the response buffer are those of this answer; every block allocated during the call is freed.", "quantifier": "every request, every answer (header lines, body pieces, status) and every allocation failure", "why_tests_cant": "answers and failure points are unbounded", "anchors": ["adapters/httpapi_curl.c:HTTPAPI_ExecuteRequest"]}
{"id": "C89", "title": "HTTPAPI (curl) options", "statement": "HTTPAPI_SetOption changes the named setting and nothing else; unknown names are refused without effect; setting a value saved by HTTPAPI_CloneOption has the same effect as setting the original.", "quantifier": "every name and value", "why_tests_cant": "every combination of settings", "anchors": ["adapters/httpapi_curl.c:HTTPAPI_SetOption", "adapters/httpapi_curl.c:HTTPAPI_CloneOption"]}
{"id": "C90", "title": "C11 condition waits and sleeps last as long as asked for", "statement": "Condition_Wait of the C11 adapter with a positive timeout ends, if the condition is not posted, not before and not long after the timeout has passed; ThreadAPI_Sleep sleeps at least the time asked for; the results tell timeout, post and error apart.", "quantifier": "every timeout, every clock reading, every answer", "why_tests_cant": "all clock readings", "anchors": ["adapters/condition_c11.c:Condition_Wait", "adapters/threadapi_c11.c:ThreadAPI_Sleep"]}
{"id": "C91", "title": "C11 locks and conditions own their memory", "statement": "Creating a C11 lock or condition that fails leaves nothing allocated; one that is returned is initialised; destroying it frees its memory exactly once.", "quantifier": "every sequence of uses and answers", "why_tests_cant": "failures at every call", "anchors": ["adapters/lock_c11.c", "adapters/condition_c11.c"]}
{"id": "C92", "title": "Linux unique ids are UUID texts of the generated octets", "statement": "UniqueId_Generate (Linux) writes, into a buffer of at least 37 bytes, the UUID text of exactly the octets libuuid generated, terminated, and nothing outside the buffer; smaller buffers are refused unchanged.", "quantifier": "every 16 octets, every buffer", "why_tests_cant": "all octets and sizes", "anchors": ["adapters/uniqueid_linux.c:UniqueId_Generate"]}
{"id": "C93", "title": "Socket io callbacks may call the socket io", "statement": "A program may call socketio open, send, close, dowork and destroy from within the callbacks the socket io makes, to any depth, under these rules only: nothing after destroy; destroy only where the running callbacks are open-complete, close-complete or the io-error of a failed send; dowork not within the completion callback of a message sent by dowork. Then no freed entry and no destroyed instance is ever touched, and destroy leaves no pending entry allocated. Each rule is needed: breaking it makes the code touch freed memory.", "quantifier": "every nesting of calls and callbacks, every kernel answer", "why_tests_cant": "unbounded nesting of callbacks and calls", "anchors": ["adapters/socketio_berkeley.c:socketio_dowork", "adapters/socketio_berkeley.c:socketio_send", "adapters/socketio_berkeley.c:socketio_destroy"]}
{"id": "C94", "title": "A socket io closed in a callback stays closed", "statement": "After socketio close (called from the program or from any callback) the io stays closed, and no byte is sent or received on it, until socketio open is called again.", "quantifier": "every nesting of calls and callbacks, every continuation", "why_tests_cant": "every callback position and continuation", "anchors": ["adapters/socketio_berkeley.c:socketio_close", "adapters/socketio_berkeley.c:socketio_dowork"]}
{"id": "C95", "title": "Messages are accounted for under re-entrant calls", "statement": "Whenever control is back in the program, the bytes handed to the kernel and the completion callbacks made are explained message by message, in the order of the send calls, whatever was called from the callbacks (within the rules of C93): each accepted message is sent whole before the next, its callback is made once after its last byte, a refused one makes no callback.", "quantifier": "every nesting of calls and callbacks, every kernel answer", "why_tests_cant": "unbounded histories", "anchors": ["adapters/socketio_berkeley.c:socketio_send", "adapters/socketio_berkeley.c:socketio_dowork"]}
{"id": "C96", "title": "Descriptors stay owned under re-entrant calls", "statement": "However calls and callbacks nest, every system call the socket io makes is on the descriptor it owns (or on the invalid one after a close), it never holds two, and after destroy it holds none.", "quantifier": "every nesting of calls and callbacks, even outside the rules", "why_tests_cant": "unbounded histories", "anchors": ["adapters/socketio_berkeley.c:socketio_open", "adapters/socketio_berkeley.c:socketio_close", "adapters/socketio_berkeley.c:socketio_destroy"]}
{"id": "C97", "title": "The send buffer may be reused in the completion callback", "statement": "socketio send reads the caller's buffer only before any callback of that call is made, so that the completion callback may free or overwrite the buffer.", "quantifier": "every run, with and without logging", "why_tests_cant": "all histories and logging settings", "anchors": ["adapters/socketio_berkeley.c:socketio_send"]}
{"id": "C98", "title": "The wolfSSL io moves bytes faithfully", "statement": "The bytes the underlying io delivers reach wolfSSL in order, none twice and none skipped (unless memory for them runs out, which is reported); every record wolfSSL writes is handed to the underlying io whole and in order; every piece of plain text wolfSSL reads goes to the user's callback, whole and in order.", "quantifier": "every TLS engine, every environment of the io including re-entrant calls from callbacks, every history, every moment", "why_tests_cant": "unbounded histories and nestings, arbitrary engine", "anchors": ["src/tlsio_wolfssl.c:on_underlying_io_bytes_received", "src/tlsio_wolfssl.c:on_io_recv", "src/tlsio_wolfssl.c:on_io_send", "src/tlsio_wolfssl.c:decode_ssl_received_bytes"]}
{"id": "C99", "title": "The wolfSSL io sends nothing before the handshake", "statement": "No plain text of the user is given to wolfSSL, and no open is reported successful, unless wolfSSL has reported the end of the handshake since the underlying io was last opened.", "quantifier": "every TLS engine, environment and history", "why_tests_cant": "all schedules of callbacks", "anchors": ["src/tlsio_wolfssl.c:tlsio_wolfssl_send", "src/tlsio_wolfssl.c:on_handshake_done"]}
{"id": "C100", "title": "The wolfSSL io completes each send once", "statement": "The completion callback of a send is handed to the underlying io exactly once, with the data of that send.", "quantifier": "every TLS engine, environment and history", "why_tests_cant": "depends on how the engine splits records and when it writes", "anchors": ["src/tlsio_wolfssl.c:on_io_send", "src/tlsio_wolfssl.c:tlsio_wolfssl_send"]}
{"id": "C101", "title": "The wolfSSL io reports each open once", "statement": "An open of the wolfSSL io that returns 0 reports its result to the user's open callback exactly once, and after a success the io accepts sends.", "quantifier": "every TLS engine, environment and history", "why_tests_cant": "all schedules of the underlying io", "anchors": ["src/tlsio_wolfssl.c:tlsio_wolfssl_open", "src/tlsio_wolfssl.c:on_underlying_io_open_complete", "src/tlsio_wolfssl.c:on_handshake_done"]}
{"id": "C102", "title": "A wolfSSL io can be opened again after a close", "statement": "After a close, or after a failed handshake, a wolfSSL io can be opened again.", "quantifier": "every history", "why_tests_cant": "unbounded histories", "anchors": ["src/tlsio_wolfssl.c:tlsio_wolfssl_open", "src/tlsio_wolfssl.c:tlsio_wolfssl_close", "src/tlsio_wolfssl.c:on_underlying_io_close_complete"]}
{"id": "C103", "title": "Calls on the wolfSSL io return", "statement": "Every call of open, dowork and send on a wolfSSL io returns, provided wolfSSL's functions and the underlying io's functions return.", "quantifier": "every state, every number of answers of the underlying io", "why_tests_cant": "termination is not observable by a test", "anchors": ["src/tlsio_wolfssl.c:on_io_recv", "src/tlsio_wolfssl.c:tlsio_wolfssl_dowork", "src/tlsio_wolfssl.c:tlsio_wolfssl_open"]}
{"id": "C104", "title": "The wolfSSL io leaks nothing", "statement": "A failed create leaves nothing allocated; after destroy everything create acquired and every block for received bytes has been released, once, and no released block is touched.", "quantifier": "every failure point, every sequence of receptions, reads and allocation failures", "why_tests_cant": "unbounded histories and all failure points", "anchors": ["src/tlsio_wolfssl.c:tlsio_wolfssl_create", "src/tlsio_wolfssl.c:tlsio_wolfssl_destroy", "src/tlsio_wolfssl.c:on_io_recv", "src/tlsio_wolfssl.c:on_underlying_io_bytes_received"]}
{"id": "C105", "title": "The mbed HTTP adapter sends exactly the request", "statement": "A request that HTTPAPI_ExecuteRequest of the mbed adapter reports as sent has put on the connection its method, path and version, the header fields in order, an empty line and the content, and nothing else; a request that fails has put there a beginning of these bytes.", "quantifier": "every request, every header list, every content, every number of bytes a send takes", "why_tests_cant": "unbounded requests and every split of the sends", "anchors": ["adapters/httpapi_mbed.cpp:HTTPAPI_ExecuteRequest", "adapters/httpapi_mbed.cpp:conn_send_all", "adapters/wolfssl_connection.cpp:WolfSSLConnection::send"]}
{"id": "C106", "title": "The mbed HTTP adapter reads well-formed responses", "statement": "However the bytes of a well-formed response are cut into pieces by the network, HTTPAPI_ExecuteRequest returns HTTPAPI_OK with its status code, its header fields and its content (sized or chunked), and consumes exactly the bytes of this response, so that the answers of a series of requests on one connection go to the right requests.", "quantifier": "every well-formed response, every split into received pieces, every number of requests", "why_tests_cant": "unbounded responses and all splits", "anchors": ["adapters/httpapi_mbed.cpp:readLine", "adapters/httpapi_mbed.cpp:readChunk", "adapters/httpapi_mbed.cpp:skipN", "adapters/httpapi_mbed.cpp:HTTPAPI_ExecuteRequest"]}
{"id": "C107", "title": "Whatever the peer sends, the mbed HTTP adapter returns and OK means a response", "statement": "HTTPAPI_ExecuteRequest always returns and never has undefined behaviour, whatever bytes the peer sends and whichever allocation or receive fails; when it returns HTTPAPI_OK the bytes it consumed are a response and the status, the header fields and the content reported are those of this response; a lack of memory is reported as HTTPAPI_ALLOC_FAILED.", "quantifier": "every byte sequence, every split, every failure of receive and malloc", "why_tests_cant": "all inputs of a hostile peer", "anchors": ["adapters/httpapi_mbed.cpp:HTTPAPI_ExecuteRequest", "adapters/httpapi_mbed.cpp:readLine", "adapters/httpapi_mbed.cpp:readChunk", "adapters/wolfssl_connection.cpp:WolfSSLConnection::receive"]}
{"id": "C108", "title": "The mbed HTTP adapter does not accept a truncated response", "statement": "When the connection ends before the last byte of a response, HTTPAPI_ExecuteRequest does not return HTTPAPI_OK.", "quantifier": "every response, every point at which it is cut, every split", "why_tests_cant": "unbounded responses, every cut", "anchors": ["adapters/httpapi_mbed.cpp:HTTPAPI_ExecuteRequest", "adapters/httpapi_mbed.cpp:readChunk"]}
{"id": "C109", "title": "The mbed HTTP handle releases what it acquired", "statement": "After any history of requests and options HTTPAPI_CloseConnection closes the socket and frees the TLS context and the TLS session; options are copied and stored, and the stored certificate is the one used.", "quantifier": "every history of calls, every failure of the TLS library and the socket", "why_tests_cant": "unbounded histories and all failure points", "anchors": ["adapters/httpapi_mbed.cpp:HTTPAPI_CreateConnection", "adapters/httpapi_mbed.cpp:HTTPAPI_CloseConnection", "adapters/httpapi_mbed.cpp:HTTPAPI_SetOption", "adapters/wolfssl_connection.cpp:WolfSSLConnection::close", "adapters/wolfssl_connection.cpp:WolfSSLConnection::connect"]}
{"id": "C110", "title": "The mbed HTTP handle connects again", "statement": "A connection once made is used by all later requests; a request after a failed attempt to connect tries again.", "quantifier": "every history of requests", "why_tests_cant": "unbounded histories", "anchors": ["adapters/httpapi_mbed.cpp:HTTPAPI_ExecuteRequest", "adapters/wolfssl_connection.cpp:WolfSSLConnection::connect", "adapters/wolfssl_connection.cpp:WolfSSLConnection::is_connected"]}
{"id": "C111", "title": "Tick counters of Windows and mbed count the elapsed time", "statement": "Two successive values of tickcounter_get_current_ms differ by the milliseconds that have passed between the calls (up to the rounding of one value), never decrease, and a failed read says so and changes nothing.", "quantifier": "every frequency, every series of reads at any distance", "why_tests_cant": "unbounded series of reads and all clock values", "anchors": ["adapters/tickcounter_win32.c:tickcounter_get_current_ms", "adapters/tickcounter_mbed.cpp:tickcounter_get_current_ms", "adapters/tickcounter_tirtos.c:tickcounter_get_current_ms"]}
{"id": "C112", "title": "mbed threads: handle, join and slots", "statement": "Every thread made by ThreadAPI_Create runs its function with its argument and has a handle of its own; ThreadAPI_Join returns the value this thread ended with (by ThreadAPI_Exit or by returning); a joined thread's slot can be used for another thread.", "quantifier": "every interleaving of creates, starts, exits, returns and joins", "why_tests_cant": "all schedules of any number of threads", "anchors": ["adapters/threadapi_rtx_mbed.cpp:ThreadAPI_Create", "adapters/threadapi_rtx_mbed.cpp:thread_wrapper", "adapters/threadapi_rtx_mbed.cpp:ThreadAPI_Join", "adapters/threadapi_rtx_mbed.cpp:ThreadAPI_Exit"]}
{"id": "C113", "title": "C11 and Windows threads: create and join", "statement": "ThreadAPI_Create reports THREADAPI_OK exactly when a thread was made, and stores a new handle for it; otherwise nothing is left behind. ThreadAPI_Join delivers the thread's value on success and releases this handle, and no other, whatever the system answers.", "quantifier": "every set of open handles, every answer of the system", "why_tests_cant": "all histories and failure points", "anchors": ["adapters/threadapi_c11.c:ThreadAPI_Create", "adapters/threadapi_c11.c:ThreadAPI_Join", "adapters/threadapi_win32.c:ThreadAPI_Create", "adapters/threadapi_win32.c:ThreadAPI_Join"]}
{"id": "C114", "title": "UniqueId_Generate on Windows stays in its buffers", "statement": "For every buffer of at least 37 bytes UniqueId_Generate writes the 36 characters of a UUID and a terminator and touches no memory outside the buffer and the text it copies; smaller buffers are refused untouched.", "quantifier": "every buffer length", "why_tests_cant": "all lengths; an over-read is invisible to a test", "anchors": ["adapters/uniqueid_win32.c:UniqueId_Generate"]}
{"id": "C115", "title": "ThreadAPI_Sleep on mbed sleeps as long as asked", "statement": "The waits of ThreadAPI_Sleep add up to the milliseconds asked for, and none is longer than 30 seconds.", "quantifier": "every number of milliseconds", "why_tests_cant": "all 2^32 arguments", "anchors": ["adapters/threadapi_rtx_mbed.cpp:ThreadAPI_Sleep"]}
{"id": "C116", "title": "Schannel io delivers the session's records in order", "statement": "What on_bytes_received gets from an open Schannel io is the contents of the records the peer sent, each once, in order and as soon as they are complete, however the bytes are cut into deliveries; nothing that was received is lost, and a record that cannot be decrypted is reported.", "quantifier": "every byte stream, every way of cutting it into deliveries, every mixture with sends, every honest answer of Schannel", "why_tests_cant": "unbounded streams and cuts", "anchors": ["src/tlsio_schannel.c:on_underlying_io_bytes_received"]}
{"id": "C117", "title": "Schannel io reports the end of every open once", "statement": "Each open handed to the underlying io is answered by exactly one on_io_open_complete, with success only when the handshake succeeded.", "quantifier": "every order of calls, deliveries, errors and failures of Schannel, memory and the underlying io, also from inside calls the io makes", "why_tests_cant": "all histories and failure points", "anchors": ["src/tlsio_schannel.c:tlsio_schannel_open", "src/tlsio_schannel.c:on_underlying_io_open_complete", "src/tlsio_schannel.c:on_underlying_io_error"]}
{"id": "C118", "title": "Schannel io reports the end of every close once", "statement": "Each close is answered by exactly one on_io_close_complete, after which the io is as new and can be opened again.", "quantifier": "every order of calls, deliveries, errors and failures", "why_tests_cant": "all histories and failure points", "anchors": ["src/tlsio_schannel.c:tlsio_schannel_close", "src/tlsio_schannel.c:on_underlying_io_close_complete"]}
{"id": "C119", "title": "Schannel io sends everything, in order", "statement": "A send hands the whole buffer to the underlying io, encrypted in pieces of at most 16384 bytes and in order, with the caller's callback going with the last piece only; a send that fails has sent nothing.", "quantifier": "every buffer, every state, every failure", "why_tests_cant": "unbounded sizes", "anchors": ["src/tlsio_schannel.c:tlsio_schannel_send", "src/tlsio_schannel.c:send_chunk"]}
{"id": "C120", "title": "Schannel io gives back everything it took", "statement": "A create that fails leaves nothing behind; after destroy every block, credential handle, security context and token is given back, each once.", "quantifier": "every failure of create, every life of an io before destroy", "why_tests_cant": "all histories", "anchors": ["src/tlsio_schannel.c:tlsio_schannel_create", "src/tlsio_schannel.c:tlsio_schannel_destroy"]}
{"id": "C121", "title": "Schannel io stays within its receive buffer", "statement": "No delivery of bytes, in any state and at any time, makes the io read or write outside its receive buffer.", "quantifier": "every order of events, also from inside callbacks; every possible answer of Schannel", "why_tests_cant": "all histories", "anchors": ["src/tlsio_schannel.c:on_underlying_io_bytes_received"]}
{"id": "C122", "title": "mbed socket io: no undefined behaviour", "statement": "No order of calls of the io, also from inside its callbacks, and no answer of the TCP connection makes the io follow a NULL connection or use freed memory.", "quantifier": "every sequence of calls, callbacks and answers", "why_tests_cant": "all histories and schedules", "anchors": ["adapters/socketio_mbed.c:socketio_dowork", "adapters/socketio_mbed.c:socketio_close", "adapters/socketio_mbed.c:socketio_open"]}
{"id": "C123", "title": "mbed socket io: the stream is what was sent", "statement": "The bytes the connection takes are the bytes of the accepted sends, each once and in order; their callbacks come once each, in that order, and when nothing is pending all went out.", "quantifier": "every sequence of sends and partial writes", "why_tests_cant": "all histories", "anchors": ["adapters/socketio_mbed.c:socketio_send", "adapters/socketio_mbed.c:socketio_dowork", "adapters/socketio_mbed.c:add_pending_io"]}
{"id": "C124", "title": "mbed socket io: what comes in is delivered", "statement": "The bytes given to on_bytes_received are the bytes the connection received, once and in order; the end or failure of the connection is reported to on_io_error.", "quantifier": "every execution", "why_tests_cant": "all histories", "anchors": ["adapters/socketio_mbed.c:socketio_dowork"]}
{"id": "C125", "title": "mbed socket io: sessions and connection objects", "statement": "Each successful open is closed at most once before the next; after destroy no connection object is left.", "quantifier": "every number and order of opens and closes", "why_tests_cant": "all histories", "anchors": ["adapters/socketio_mbed.c:socketio_open", "adapters/socketio_mbed.c:socketio_close", "adapters/socketio_mbed.c:socketio_destroy", "adapters/tcpsocketconnection_c.cpp:tcpsocketconnection_create"]}
{"id": "C126", "title": "mbed socket io: close drops what waits, dowork returns", "statement": "A message accepted in one session is never sent in another; socketio_dowork returns whatever the connection answers.", "quantifier": "every execution", "why_tests_cant": "all histories; unbounded loops", "anchors": ["adapters/socketio_mbed.c:socketio_close", "adapters/socketio_mbed.c:socketio_dowork"]}
{"id": "C127", "title": "Windows socket io: no undefined behaviour", "statement": "No order of calls of the io, also from inside its callbacks, and no answer of the socket layer makes the io use freed memory.", "quantifier": "every sequence of calls, callbacks and answers", "why_tests_cant": "all histories and schedules", "anchors": ["adapters/socketio_win32.c:socketio_dowork", "adapters/socketio_win32.c:socketio_send"]}
{"id": "C128", "title": "Windows socket io: the stream is what was sent", "statement": "The bytes the socket takes are the bytes of the accepted sends, each once and in order; their callbacks come once each in that order; a send that fails sends nothing.", "quantifier": "every sequence of sends, partial sends and errors", "why_tests_cant": "all histories", "anchors": ["adapters/socketio_win32.c:socketio_send", "adapters/socketio_win32.c:socketio_dowork", "adapters/socketio_win32.c:add_pending_io"]}
{"id": "C129", "title": "Windows socket io: what comes in is delivered", "statement": "The bytes given to on_bytes_received are the bytes received, once and in order; a failure or the end of the stream is reported to on_io_error, and nothing is reported after close.", "quantifier": "every execution", "why_tests_cant": "all histories", "anchors": ["adapters/socketio_win32.c:socketio_dowork"]}
{"id": "C130", "title": "Windows socket io: sockets and sessions", "statement": "Every socket made or taken over is closed exactly once, at most one is open at a time and none after destroy; each successful open is closed at most once before the next.", "quantifier": "every execution, also with failing opens and calls from callbacks", "why_tests_cant": "all histories", "anchors": ["adapters/socketio_win32.c:socketio_open", "adapters/socketio_win32.c:socketio_close", "adapters/socketio_win32.c:socketio_destroy"]}
{"id": "C131", "title": "Windows socket io: close drops what waits, dowork returns, open goes to the named host", "statement": "A message accepted in one session is never sent in another; socketio_dowork returns whatever the socket answers; open connects to the peer the io was made for or fails.", "quantifier": "every execution", "why_tests_cant": "all histories; unbounded loops", "anchors": ["adapters/socketio_win32.c:socketio_close", "adapters/socketio_win32.c:socketio_dowork", "adapters/socketio_win32.c:socketio_open"]}
{"id": "C132", "title": "Locks of Windows and mbed exclude", "statement": "Two threads are never between a successful Lock and their Unlock of one lock; a lock that is not held can be had; Unlock by a thread that does not hold it returns LOCK_ERROR; NULL is refused; Deinit gives the lock back.", "quantifier": "any number of threads, every interleaving", "why_tests_cant": "all schedules", "anchors": ["adapters/lock_win32.c:Lock", "adapters/lock_win32.c:Unlock", "adapters/lock_rtx_mbed.cpp:Lock", "adapters/lock_rtx_mbed.cpp:Unlock"]}
{"id": "C133", "title": "Conditions on mbed", "statement": "A condition can be made, Condition_Wait waits for Condition_Post or the timeout, NULL is answered with COND_INVALID_ARG.", "quantifier": "all handles and timeouts", "why_tests_cant": "all schedules", "anchors": ["adapters/condition_rtx_mbed.cpp:Condition_Init", "adapters/condition_rtx_mbed.cpp:Condition_Post"]}
{"id": "C134", "title": "platform_init and platform_deinit are paired", "statement": "platform_init succeeds exactly when the network is up (on mbed with the clock set), leaves nothing up when it fails, and platform_deinit undoes it.", "quantifier": "all outcomes of the system's calls, any number of inits", "why_tests_cant": "all failure points", "anchors": ["adapters/platform_mbed.cpp:platform_init", "adapters/platform_win32.c:platform_init"]}
{"id": "C135", "title": "TI-RTOS HTTP: the request that goes out is the caller's", "statement": "HTTPAPI_ExecuteRequest sends the request line with the method and path, every header with its value (without leading spaces), the end of the headers and the body, in that order; whatever fails, only a beginning of that has been sent, and HTTPAPI_OK means all of it was. NULL arguments and unknown methods send nothing.", "quantifier": "all methods, paths, header lists and contents, all failures of the library", "why_tests_cant": "all header lists and failure points", "anchors": ["adapters/httpapi_tirtos.c:HTTPAPI_ExecuteRequest", "adapters/httpapi_tirtos.c:splitHeader", "adapters/httpapi_tirtos.c:getHttpMethod"]}
{"id": "C136", "title": "TI-RTOS HTTP: HTTPAPI_OK gives the whole response", "statement": "However the library cuts headers and body into pieces, HTTPAPI_OK means that the status, every header and the whole body have been given to the caller, and the buffer holds the body; a connection that fails meanwhile is reported.", "quantifier": "all responses, all ways to cut them into pieces, all failure points, all contents of the buffer before", "why_tests_cant": "all chunkings and failure points", "anchors": ["adapters/httpapi_tirtos.c:HTTPAPI_ExecuteRequest"]}
{"id": "C137", "title": "TI-RTOS HTTP: a request neither corrupts nor loses memory", "statement": "For every response whose headers end with a NUL, HTTPAPI_ExecuteRequest reads and writes only memory it has, and gives all of it back however it ends.", "quantifier": "all requests, responses, chunkings and memory failures", "why_tests_cant": "all chunkings and failure points", "anchors": ["adapters/httpapi_tirtos.c:HTTPAPI_ExecuteRequest", "adapters/httpapi_tirtos.c:splitHeader"]}
{"id": "C138", "title": "TI-RTOS HTTP: connections are paired", "statement": "HTTPAPI_CreateConnection gives a handle exactly when the address, the client and the connection could be had, leaves no client otherwise, and HTTPAPI_CloseConnection deletes it.", "quantifier": "all outcomes of the library's calls", "why_tests_cant": "all failure points", "anchors": ["adapters/httpapi_tirtos.c:HTTPAPI_CreateConnection", "adapters/httpapi_tirtos.c:HTTPAPI_CloseConnection"]}
{"id": "C139", "title": "Windows HTTP: the text of the request headers is complete and fits its block", "statement": "The headers given to WinHTTP are the lines 'name: value' with CR LF, in order, in a block exactly large enough; if any copy or allocation fails nothing is made.", "quantifier": "all header lists, all failures of the copies and of malloc", "why_tests_cant": "all lists and failure points", "anchors": ["adapters/httpapi_winhttp.c:ConstructHeadersString"]}
{"id": "C140", "title": "Windows HTTP: the request that goes out is the caller's", "statement": "HTTPAPI_ExecuteRequest sends at most one message; it has the method, path, headers and content of the caller, and HTTPAPI_OK means it was sent. NULL arguments, unknown methods and an uninitialised api send nothing.", "quantifier": "all requests and all failures of the system", "why_tests_cant": "all contents and failure points", "anchors": ["adapters/httpapi_winhttp.c:HTTPAPI_ExecuteRequest"]}
{"id": "C141", "title": "Windows HTTP: HTTPAPI_OK gives the whole response", "statement": "However the body arrives, HTTPAPI_OK means that the status is stored, the body has been appended to the buffer byte by byte, and exactly the headers of the response have been added; a body that is cut short is reported.", "quantifier": "all responses, chunkings and failures", "why_tests_cant": "all chunkings and failure points", "anchors": ["adapters/httpapi_winhttp.c:HTTPAPI_ExecuteRequest"]}
{"id": "C142", "title": "Windows HTTP: a request gives back all blocks and handles", "statement": "However HTTPAPI_ExecuteRequest ends, it closes the request handle and frees every block it allocated, and on a connection that was made it never does anything undefined.", "quantifier": "all requests, responses and failures", "why_tests_cant": "all paths", "anchors": ["adapters/httpapi_winhttp.c:HTTPAPI_ExecuteRequest"]}
{"id": "C143", "title": "Windows HTTP: the session is counted and connections are paired", "statement": "The WinHTTP session is open exactly while the api is initialised, and closed once; HTTPAPI_CreateConnection gives either NULL, leaving nothing, or a connection that can be used, and HTTPAPI_CloseConnection gives it back.", "quantifier": "all histories of Init and Deinit, all failures", "why_tests_cant": "all histories and failure points", "anchors": ["adapters/httpapi_winhttp.c:HTTPAPI_Init", "adapters/httpapi_winhttp.c:HTTPAPI_Deinit", "adapters/httpapi_winhttp.c:HTTPAPI_CreateConnection", "adapters/httpapi_winhttp.c:HTTPAPI_CloseConnection"]}
{"id": "C144", "title": "Windows HTTP: the timeout set is the timeout used", "statement": "A timeout given to HTTPAPI_SetOption, or saved by HTTPAPI_CloneOption and set later, is the send and receive timeout of the following requests; other options and NULL arguments change nothing.", "quantifier": "all values, option names and requests", "why_tests_cant": "all values", "anchors": ["adapters/httpapi_winhttp.c:HTTPAPI_SetOption", "adapters/httpapi_winhttp.c:HTTPAPI_CloneOption", "adapters/httpapi_winhttp.c:HTTPAPI_ExecuteRequest"]}
{"id": "C145", "title": "Windows CE: which certificates are accepted", "statement": "On Windows CE the server's certificate is accepted, under the only options the library ever uses, exactly if it is an X.509 certificate that is itself in one of the system stores (CA, ROOT, MY) that can be opened; the check leaves no certificate context or store open. (It looks neither at the host name nor at the time, and refuses certificates a trusted root has signed.)", "quantifier": "every certificate, every content of the stores, every store that cannot be opened, every setting of the options", "why_tests_cant": "the contents of the certificate stores are unbounded and the loop over them has to be right for each", "anchors": ["adapters/httpapi_wince.c", "SSLValidateCertHook"]}
{"id": "C146", "title": "Windows CE: requests leave only over checked TLS, and sockets are not lost", "statement": "In every history of creating connections, requests and closing connections on Windows CE, a byte is sent only over a socket that was made secure, got the certificate hook under the strict option, was limited to TLS 1, was then connected to port 443 and is not closed; no socket is closed twice or used after it was closed; and when every connection handle was closed every socket is.", "quantifier": "every sequence of calls on any number of handles, every failure of socket, setsockopt, WSAIoctl, gethostbyname, connect, send, recv", "why_tests_cant": "it ranges over all interleavings of failures with later calls", "anchors": ["adapters/httpapi_wince.c", "HTTPAPI_ExecuteRequest", "SSLInit", "HTTPAPI_CloseConnection"]}
{"id": "C147", "title": "Windows CE: a connection that failed can be tried again", "statement": "If HTTPAPI_ExecuteRequest on Windows CE could not connect, it says so, and a later request on the same handle connects again if the platform allows it.", "quantifier": "every handle, every cause of the failure, every later request", "why_tests_cant": "it is about everything that can follow a failure", "anchors": ["adapters/httpapi_wince.c", "HTTPAPI_ExecuteRequest"]}
{"id": "C148", "title": "Windows CE: requests are sent and replies read as asked", "statement": "On Windows CE a request to any host is sent to the address of that host, port 443, byte for byte as asked, HTTPAPI_OK is returned only if all of it was sent, and a well-formed reply is given to the caller as it says; nothing is stored outside the library's buffers.", "quantifier": "every host, request and well-formed reply, however the reply is cut into pieces", "why_tests_cant": "hosts, requests and replies are unbounded", "anchors": ["adapters/httpapi_wince.c", "HTTPAPI_ExecuteRequest"]}
{"id": "C149", "title": "Windows CE: start and end, handles and options", "statement": "HTTPAPI_Init succeeds exactly if Winsock 2.2 starts, and leaves nothing started otherwise; HTTPAPI_Deinit ends what a successful HTTPAPI_Init started. HTTPAPI_CreateConnection gives a handle for exactly the host names of at most 63 characters. Every option is refused, and nothing is given out as a copy of one.", "quantifier": "every answer of the platform, every host name, every option and value", "why_tests_cant": "names and values are unbounded", "anchors": ["adapters/httpapi_wince.c", "HTTPAPI_Init", "HTTPAPI_Deinit", "HTTPAPI_CreateConnection", "HTTPAPI_SetOption", "HTTPAPI_CloneOption"]}
{"id": "C150", "title": "Options pass through a stack of ios", "statement": "An option no TLS io of a stack knows is handed on unchanged, name and value, to the io at the bottom and its answer is returned; a socket refuses every option (non-zero), and a NULL io or name is refused; nothing else changes.", "quantifier": "stacks of any depth of OpenSSL, wolfSSL and Schannel ios, every option name and value", "why_tests_cant": "all stacks and names", "anchors": ["src/xio.c:xio_setoption", "src/tlsio_openssl.c:tlsio_openssl_setoption", "src/tlsio_wolfssl.c:tlsio_wolfssl_setoption", "src/tlsio_schannel.c:tlsio_schannel_setoption", "adapters/socketio_berkeley.c:socketio_setoption"]}
{"id": "C151", "title": "TrustedCerts is trusted exactly when 0 is returned", "statement": "TrustedCerts goes to the first io of the stack that knows it; after any history of options that io trusts what it did before and the certificates of the calls that returned 0, no others, and the ios below are untouched.", "quantifier": "every history of options, every PEM text, every failure of the TLS libraries", "why_tests_cant": "all texts, failures and histories", "anchors": ["src/tlsio_openssl.c:tlsio_openssl_setoption", "src/tlsio_wolfssl.c:tlsio_wolfssl_setoption", "src/tlsio_schannel.c:tlsio_schannel_setoption"]}
{"id": "C152", "title": "Setting options leaks nothing", "statement": "Whatever fails, each BIO made for an option is freed, and each certificate object is referenced only by the store that took it.", "quantifier": "every history of options, every failure of the TLS libraries", "why_tests_cant": "all failure points and histories", "anchors": ["src/tlsio_openssl.c:tlsio_openssl_setoption"]}
{"id": "C153", "title": "Type names are normalised", "statement": "umocktypename_normalize returns a new string with the words and stars of the name, one space between words, none about stars; it returns NULL only for NULL, a name of white space or no memory; two names have the same normal form exactly when their words and stars are the same; every read and write is inside the strings.", "quantifier": "every C string, every answer of malloc", "why_tests_cant": "all strings of any length", "anchors": ["testtools/umock_c/src/umocktypename.c:umocktypename_normalize"]}
{"id": "C154", "title": "The registry of mock types is a table", "statement": "After any history of umocktypes calls, a type is known under every spelling with the functions it was first registered with; registering again with the same functions succeeds and with others fails; stringify, are_equal, copy and free call exactly the registered function with the caller's pointers, or fail when the type is unknown, the module off or memory short; no type has two entries and one name is held for each entry, none after deinit.", "quantifier": "every history of calls, every answer of malloc and of the registered functions", "why_tests_cant": "all histories", "anchors": ["testtools/umock_c/src/umocktypes.c"]}
{"id": "C155", "title": "Mock calls are recorded, matched and freed as documented", "statement": "For every test that gives away or destroys only calls it owns: each actual call is compared with the first expected call not yet met, in order; it meets it, is recorded as unexpected, or the call fails and the test keeps it; the two strings are the texts '[name(arguments)]' of the pending and of the unexpected calls, NULL only for want of memory or of an argument's text; every call created is destroyed at most once, and after reset or deinit all calls given away are destroyed and their data freed once; nothing undefined happens.", "quantifier": "every adaptive test program of any length, every answer of malloc and of the call data's functions", "why_tests_cant": "all programs and failure points", "anchors": ["testtools/umock_c/src/umock_c.c", "testtools/umock_c/src/umockcall.c", "testtools/umock_c/src/umockcallrecorder.c"]}
{"id": "C156", "title": "Equal strings mean the expected calls were made", "statement": "When the strings of expected and actual calls are equal, the code under test made exactly the expected calls, in order.", "quantifier": "every list of expected and of actual calls", "why_tests_cant": "all pairs of lists", "anchors": ["testtools/umock_c/src/umockcallrecorder.c:umockcallrecorder_add_actual_call", "testtools/umock_c/src/umockcallrecorder.c:umockcallrecorder_get_expected_calls", "testtools/umock_c/src/umockcallrecorder.c:umockcallrecorder_get_actual_calls"]}
{"id": "C157", "title": "umock_c_init can be tried again", "statement": "umock_c_init succeeds on a library that is off when there is memory, and then knows the types of C under every spelling; when it fails for want of memory nothing is left behind and a later call succeeds.", "quantifier": "every history, every answer of malloc", "why_tests_cant": "all failure points and histories", "anchors": ["testtools/umock_c/src/umock_c.c:umock_c_init", "testtools/umock_c/src/umock_c.c:umock_c_deinit", "testtools/umock_c/src/umocktypes_c.c:umocktypes_c_register_types"]}
{"id": "C158", "title": "The text of an expected buffer", "statement": "The text written for bytes an argument has to point to is '[0xAB 0xCD]': one group per byte separated by single blanks, in brackets, in a block of exactly that size; NULL only when there is no memory.", "quantifier": "every buffer of bytes of every length, every answer of malloc", "why_tests_cant": "all lengths and contents", "anchors": ["testtools/umock_c/inc/umock_c_internal.h:stringify_buffer"]}
{"id": "C159", "title": "The text of a call's arguments", "statement": "The arguments of a mocked call are written in order, separated by single commas, each as the bytes it has to point to or as its type's function writes its value; nothing is written outside the block; NULL only when a type's function or malloc failed.", "quantifier": "every number of arguments, every value and type function, every answer of malloc", "why_tests_cant": "all argument lists and failure points", "anchors": ["testtools/umock_c/inc/umock_c_internal.h:IMPLEMENT_MOCK_FUNCTION", "testtools/umock_c/inc/umock_c_internal.h:STRINGIFY_ARGS_COPY_ARG_STRING"]}
{"id": "C160", "title": "A mocked function does what the test says", "statement": "In every test, whatever its order of expectations, modifiers and calls: a call of a mock meets the first expectation still due exactly when it is for the same function and every argument agrees with what is wanted of it, else it is reported as unexpected; it returns the value set for it, else what the hook returns, else the default; it fills in the output arguments; the hook is called every time the mock is called.", "quantifier": "every adaptive test program, every set of mocks and type functions", "why_tests_cant": "all histories of a test", "anchors": ["testtools/umock_c/inc/umock_c_internal.h:IMPLEMENT_MOCK_FUNCTION", "testtools/umock_c/inc/umock_c_internal.h:ARE_EQUAL_FOR_ARG", "testtools/umock_c/inc/umock_c_internal.h:COPY_OUT_ARG_VALUE_FROM_MATCHED_CALL"]}
{"id": "C161", "title": "Call modifiers change the last expectation and nothing else", "statement": "A modifier changes just what its name says of the last expected call; an argument number out of range, an empty buffer or no expected call is reported by the error code documented for it and nothing changes.", "quantifier": "every modifier, argument number, buffer and history of a test", "why_tests_cant": "all histories, all arguments", "anchors": ["testtools/umock_c/inc/umock_c_internal.h:IMPLEMENT_VALIDATE_ARGUMENT_BUFFER_FUNCTION", "testtools/umock_c/inc/umock_c_internal.h:IMPLEMENT_IGNORE_ALL_ARGUMENTS_FUNCTION", "testtools/umock_c/inc/umock_c_internal.h:IMPLEMENT_SET_RETURN_FUNCTION"]}
{"id": "C162", "title": "Mocks keep and free call data exactly once", "statement": "The call data in memory are at every moment those of the expected and unexpected calls the library still knows; each copied value is given back once when its call is forgotten, and nothing but copied values is given back; want of memory is reported.", "quantifier": "every adaptive test program, every answer of malloc", "why_tests_cant": "all histories and failure points", "anchors": ["testtools/umock_c/inc/umock_c_internal.h:mock_call_data_free_func_", "testtools/umock_c/inc/umock_c_internal.h:IMPLEMENT_MOCK_FUNCTION", "testtools/umock_c/src/umock_c.c:umock_c_deinit"]}
{"id": "C163", "title": "The test runner calls every test once, in order", "statement": "Running a test suite calls the suite initialiser once, then for each test in the order it is listed the test initialiser, the test and the test cleanup, then the suite cleanup; a test whose initialiser failed an assertion is not called and counts as failed; what is returned and printed is the number of failing tests.", "quantifier": "all suites, all test functions (arbitrary state transformers that may fail an assertion at any point)", "why_tests_cant": "it must hold for every suite and every combination of failing assertions, and the runner is itself what runs the tests", "anchors": ["testtools/ctest/src/ctest.c:RunTests", "testtools/ctest/inc/ctest.h"]}
{"id": "C164", "title": "A green test run means no assertion failed", "statement": "If running a suite returns 0 then every test was called and no assertion failed anywhere in the run.", "quantifier": "all suites and test functions", "why_tests_cant": "the runner's own verdict is what is in question", "anchors": ["testtools/ctest/src/ctest.c:RunTests"]}
{"id": "C165", "title": "Assertions compare values and print them", "statement": "The integer and string assertions pass exactly when the two values are equal, and a failing one prints both values without writing outside its buffers.", "quantifier": "all integers, all strings (including NULL and strings of any length), all supported C libraries", "why_tests_cant": "unbounded strings and all pairs of values", "anchors": ["testtools/ctest/src/ctest.c", "testtools/ctest/inc/ctest.h"]}
{"id": "C166", "title": "The mocking library's texts of integers", "statement": "The text the mocking library makes of an integer of any C type is the decimal numeral of the value, it never overruns the 32 byte buffer, different values have different texts, a copied value is equal to its original and values are equal exactly when they are the same number.", "quantifier": "all integer types, all values, all allocation failures, platforms with 32 and 64 bit long and size_t", "why_tests_cant": "2^64 values and every allocation outcome", "anchors": ["testtools/umock_c/src/umocktypes_c.c"]}
{"id": "C167", "title": "The mocking library's texts of floating point numbers", "statement": "The text of a floating point number is the nearest decimal with six places and fits its buffer; a copy of a value is equal to the value.", "quantifier": "all finite numbers, infinities and NaN", "why_tests_cant": "unbounded range of values", "anchors": ["testtools/umock_c/src/umocktypes_c.c"]}
{"id": "C168", "title": "The mocking library's strings", "statement": "The text of a string is the string between quotes in a block of exactly that size, a copy is a block of its own holding the same string, two strings are equal exactly when they have the same characters, and different argument lists have different texts.", "quantifier": "all strings, NULL, all allocation failures", "why_tests_cant": "unbounded strings and every allocation outcome", "anchors": ["testtools/umock_c/src/umocktypes_charptr.c"]}
{"id": "C169", "title": "C++ mocks: expectations met in any order", "statement": "With the strict (unordered) and nice comparers, each call of a mock uses up the first expectation that still wants it and answers the value set for it, calls no expectation wants are reported as unexpected (strict only), expectations not met are reported as missing with the number of times; nothing is reported exactly when the calls are a permutation of the expectations.", "quantifier": "all interleavings of expectations and calls, all argument values, repetition counts", "why_tests_cant": "every history of expectations and calls; the mocks are what tests are made of", "anchors": ["testtools/micromock/inc/strictunorderedcallcomparer.h", "testtools/micromock/inc/nicecallcomparer.h", "testtools/micromock/src/mockcallrecorder.cpp", "testtools/micromock/src/mockmethodcallbase.cpp"]}
{"id": "C170", "title": "C++ mocks: expectations met in order", "statement": "With the ordered comparer only the first expectation that is left can be met by the next call; nothing is reported exactly when the calls are the expected ones in that order, ignored arguments apart.", "quantifier": "all interleavings of expectations and calls, all argument values, repetition counts", "why_tests_cant": "every history of expectations and calls", "anchors": ["testtools/micromock/inc/strictorderedcallcomparer.h", "testtools/micromock/src/mockcallrecorder.cpp"]}
{"id": "C171", "title": "C++ mocks: reset forgets", "statement": "After ResetAllCalls a mock behaves as a new one, and after ResetActualCalls its expectations can be met again.", "quantifier": "all states of a mock and all later histories", "why_tests_cant": "every history before and after", "anchors": ["testtools/micromock/src/mockcallrecorder.cpp"]}
{"id": "C172", "title": "Names of enumeration constants", "statement": "For every enumeration defined with the macros: the text of a constant is its name, a value that is no constant has no text and reads nothing outside the table, reading a text gives the constant of that name and fails for every other text, and the two directions are inverse.", "quantifier": "all enumerations, all representable values, all texts", "why_tests_cant": "all values of the type and all texts, for every enumeration generated", "anchors": ["inc/azure_c_shared_utility/macro_utils.h:DEFINE_ENUM_STRINGS", "inc/azure_c_shared_utility/macro_utils.h:ENUM_TO_STRING"]}
{"id": "C173", "title": "Mock arguments with validated buffers", "statement": "Buffer validations that contradict each other are refused; an argument with validations that do not matches exactly when the actual memory holds the expected bytes at every validated place, and both texts show exactly those bytes, with dots elsewhere. NULL and lack of memory are reported.", "quantifier": "all lists of validations (offset, bytes), all contents of the argument", "why_tests_cant": "all offsets, lengths, overlaps and contents", "anchors": ["testtools/micromock/inc/mockcallargument.h:AddBufferValidation", "testtools/micromock/inc/mockcallargument.h:operator==", "testtools/micromock/inc/mockcallargument.h:CreateBufferValidationMask"]}
{"id": "C174", "title": "Mock arguments that are copied out", "statement": "After a call matched an expectation with copy-out buffers, every place of the caller's memory has the byte of the last buffer given for it, every other place is unchanged, and nothing outside is written.", "quantifier": "all lists of copy-out buffers, all memories of the caller", "why_tests_cant": "all offsets, lengths and overlaps", "anchors": ["testtools/micromock/inc/mockcallargument.h:CopyOutArgumentDataFrom", "testtools/micromock/inc/mockcallargument.h:AddCopyOutArgumentBuffer"]}
{"id": "C175", "title": "Stimuli of time-discrete mocks", "statement": "Running a time-discrete mock until a tick makes every stimulus given to it with STIM_CALL_AT for a tick up to it exactly once, at its tick and before the task of that tick, those of one tick in the order they were scheduled whatever function they call; the task runs once per tick. Other mocks and their stimuli do not change that. Ticks beyond the limit are refused.", "quantifier": "all sequences of fewer than 2^32 stimuli over any number of mocks, functions and ticks, all ticks to run to", "why_tests_cant": "all interleavings of stimuli over functions and ticks", "anchors": ["testtools/micromock/inc/timediscretemicromock.h:RunUntilTick", "testtools/micromock/inc/timediscretemicromock.h:getAndIncOrder", "testtools/micromock/inc/timediscretemicromockcallmacros.h:STIM_CALL_AT", "testtools/micromock/inc/timediscretemicromockcallmacros.h:PlayTick"]}
{"id": "C176", "title": "String values of mocks", "statement": "A string argument of a mock keeps the text it had when captured; two are equal exactly when both are NULL or both have the same text, whatever their pointers; the printed forms of different values differ.", "quantifier": "all strings and NULL, all outcomes of allocation", "why_tests_cant": "all pairs of texts, and what lies behind the terminator", "anchors": ["testtools/micromock/inc/micromockcharstararenullterminatedstrings.h:CMockValue<char*>", "testtools/micromock/src/micromockcharstararenullterminatedstrings.cpp:operator=="]}
{"id": "C177", "title": "Time-discrete mocks make no other calls", "statement": "Running a time-discrete mock makes no call that was not scheduled for it: not the stimuli of other mocks, not calls given without a time.", "quantifier": "all stimuli of any number of mocks", "why_tests_cant": "all interleavings of stimuli over mocks", "anchors": ["testtools/micromock/inc/timediscretemicromock.h:PlayTick", "testtools/micromock/inc/timediscretemicromock.h:allPlayers"]}
{"id": "C178", "title": "Thread handles of the C11 and Windows ports", "statement": "ThreadAPI_Create on C11 reports THREADAPI_OK exactly when a thread was made, with a new handle for it, and leaves nothing otherwise; ThreadAPI_Join on C11 and Windows delivers the thread's value exactly when it reports THREADAPI_OK and always releases this handle and no other.", "quantifier": "all sets of handles, all answers of the system", "why_tests_cant": "all combinations of allocation, thread and wait failures", "anchors": ["adapters/threadapi_c11.c:ThreadAPI_Create", "adapters/threadapi_c11.c:ThreadAPI_Join", "adapters/threadapi_win32.c:ThreadAPI_Join"]}
{"id": "C179", "title": "Schannel sends the whole buffer in order", "statement": "A send on an open Schannel io that meets no failure hands over the whole buffer, encrypted in pieces of at most 16384 bytes, in order, the caller's callback going with the last piece.", "quantifier": "all buffers, callbacks and encryptions", "why_tests_cant": "buffers longer than one piece", "anchors": ["src/tlsio_schannel.c:tlsio_schannel_send", "src/tlsio_schannel.c:send_chunk"]}
{"id": "C180", "title": "mbed sockets deliver every byte once", "statement": "The bytes given to on_bytes_received by socketio_mbed are the bytes its connection received, each once and in order.", "quantifier": "all histories of calls and answers of the connection", "why_tests_cant": "all interleavings of opens, closes, callbacks and receptions", "anchors": ["adapters/socketio_mbed.c:socketio_dowork"]}
{"id": "C181", "title": "Windows sockets deliver every byte once and report failures", "statement": "The bytes given to on_bytes_received by socketio_win32 are the bytes received, each once and in order; a reception that fails other than for lack of data reports one error.", "quantifier": "all histories of calls and answers of the socket", "why_tests_cant": "all interleavings of opens, closes, callbacks and receptions", "anchors": ["adapters/socketio_win32.c:socketio_dowork"]}
{"id": "C182", "title": "TI-RTOS HTTP requests have no undefined behaviour", "statement": "If the pieces of header the client library returns end with a NUL and the names and values given have no colon or NUL, HTTPAPI_ExecuteRequest has no undefined behaviour.", "quantifier": "all requests, answers of the client library and outcomes of allocation", "why_tests_cant": "all splits of a header into pieces, all failures", "anchors": ["adapters/httpapi_tirtos.c:HTTPAPI_ExecuteRequest", "adapters/httpapi_tirtos.c:splitHeader"]}
{"id": "C183", "title": "The WinHTTP session is open exactly while initialised", "statement": "The WinHTTP session is open exactly while more HTTPAPI_Init than HTTPAPI_Deinit succeeded, and each session opened is closed once.", "quantifier": "all histories of calls", "why_tests_cant": "every nesting of initialisations", "anchors": ["adapters/httpapi_winhttp.c:HTTPAPI_Init", "adapters/httpapi_winhttp.c:HTTPAPI_Deinit"]}
{"id": "C184", "title": "Names and values of stored headers", "statement": "Every header stored has a name of printable characters without colon and a value that does not begin with linear white space, prints as name, colon, space, value, and is found again under that name.", "quantifier": "all histories of an HTTPHeaders handle", "why_tests_cant": "all names, values and histories", "anchors": ["src/httpheaders.c:headers_ReplaceHeaderNameValuePair", "src/httpheaders.c:HTTPHeaders_GetHeader"]}
{"id": "C185", "title": "Socket sends complete at most once, in order", "statement": "For each message accepted by socketio_send, on_send_complete is called at most once, only with OK, only after all its bytes were handed to the kernel, in order of acceptance.", "quantifier": "all histories of calls and answers of the kernel", "why_tests_cant": "all splits of sends by the kernel", "anchors": ["adapters/socketio_berkeley.c:socketio_send", "adapters/socketio_berkeley.c:socketio_dowork"]}
{"id": "C186", "title": "Shape of unique ids", "statement": "UniqueId_Generate writes exactly 36 characters and a terminator, groups of 8-4-4-4-12 upper-case hex digits, a different text for different octets; with a shorter buffer it returns an error and writes nothing.", "quantifier": "all octets generated, all buffers and sizes", "why_tests_cant": "all 16-octet values", "anchors": ["adapters/uniqueid_stub.c:UniqueId_Generate"]}
{"id": "C187", "title": "C11 locks free their memory once", "statement": "A C11 lock or condition that is destroyed has its memory freed exactly once, a lock not made leaves nothing, and Lock, Unlock and Post succeed exactly when the C11 call does.", "quantifier": "all uses and answers of the C11 library", "why_tests_cant": "all answers of the C11 library", "anchors": ["adapters/lock_c11.c", "adapters/condition_c11.c"]}
{"id": "C188", "title": "wolfSSL ios release everything on destroy", "statement": "After tlsio_wolfssl_destroy everything that a successful create acquired and every block for received bytes has been released, once, and no released block was touched before.", "quantifier": "all histories between create and destroy", "why_tests_cant": "all histories of receptions and allocations", "anchors": ["src/tlsio_wolfssl.c:tlsio_wolfssl_create", "src/tlsio_wolfssl.c:tlsio_wolfssl_destroy"]}
{"id": "C189", "title": "Mutual exclusion of the Windows and mbed locks", "statement": "Two threads are never between a successful Lock and their Unlock of one lock; NULL is refused by all functions; Deinit gives the lock back.", "quantifier": "any number of threads, all interleavings", "why_tests_cant": "all schedules", "anchors": ["adapters/lock_win32.c:Lock", "adapters/lock_rtx_mbed.cpp:Lock"]}
{"id": "C190", "title": "Schannel blocks are freed once", "statement": "A create that fails leaves nothing behind; every block of memory an io had is freed once by the end.", "quantifier": "all histories of an io", "why_tests_cant": "all failures during handshake and traffic", "anchors": ["src/tlsio_schannel.c:tlsio_schannel_create", "src/tlsio_schannel.c:tlsio_schannel_destroy"]}
{"id": "C191", "title": "BIOs made for options are freed", "statement": "Each BIO made while setting TLS options is freed by the end of the call, whatever fails.", "quantifier": "all texts of options, all failures of the library", "why_tests_cant": "all failures in sequence", "anchors": ["src/tlsio_openssl.c:tlsio_openssl_setoption"]}
{"id": "C192", "title": "Array values of mocks", "statement": "An array argument of a mock keeps the elements it had when captured, whatever becomes of the caller's array; two of a size are equal exactly when both are NULL or all elements are equal; every copy is freed once.", "quantifier": "all arrays and sizes, all histories of SetValue, all outcomes of allocation", "why_tests_cant": "all element values, and allocation failures between captures", "anchors": ["testtools/micromock/inc/mockvalue.h:CMockValue<T[N]>", "testtools/micromock/inc/mockvalue.h:operator=="]}
{"id": "C193", "title": "Wide string values of mocks", "statement": "A wide string argument keeps its text; two are equal exactly when both are NULL or have the same text; GetValue gives NULL back as NULL; texts of different characters print differently.", "quantifier": "all wide strings and NULL", "why_tests_cant": "all characters of a wide character set", "anchors": ["testtools/micromock/inc/mockvalue.h:CMockValue<wchar_t*>"]}
{"id": "C194", "title": "Pointer arguments of time-discrete calls", "statement": "A scheduled call is given NULL for NULL, the value that was behind its pointer, or, with setArraySize, the elements that were there; every block made for it is freed once.", "quantifier": "all sequences of scheduled calls and array sizes, all reallocations of the vector", "why_tests_cant": "all histories and reallocations", "anchors": ["testtools/micromock/inc/timediscretemicromock.h:valueHolder<T*>", "testtools/micromock/inc/timediscretemicromockcallmacros.h:call1Arg"]}
{"id": "C195", "title": "Singletons of global mocks", "statement": "GetSingleton of a global mock returns the mock that is alive.", "quantifier": "all orders in which mocks begin and end", "why_tests_cant": "all orders of lifetimes", "anchors": ["testtools/micromock/inc/globalmock.h:CGlobalMock"]}
{"id": "C196", "title": "Singletons of thread-safe mocks", "statement": "At most one mock of a class is ever alive, the singleton is that mock, and another one is refused exactly while it is alive.", "quantifier": "all interleavings of constructors and destructors", "why_tests_cant": "all schedules of threads", "anchors": ["testtools/micromock/inc/threadsafeglobalmock.h:CThreadSafeGlobalMock"]}
{"id": "C197", "title": "VECTOR is an array while memory lasts", "statement": "With element sizes above 0 and without a failing allocation, every history of VECTOR calls on any number of vectors gives the results growable arrays give; a call touches no other vector; a push_back that fails changes nothing.", "quantifier": "all histories of calls on any number of vectors", "why_tests_cant": "all histories", "anchors": ["src/vector.c:VECTOR_push_back", "src/vector.c:VECTOR_erase", "src/vector.c:VECTOR_find_if"]}
{"id": "C198", "title": "mbed HTTP requests always return", "statement": "Whatever the peer sends, the TLS library answers and the allocator does, HTTPAPI_ExecuteRequest of the mbed adapter comes to an end.", "quantifier": "all requests, peers, TLS answers and outcomes of allocation", "why_tests_cant": "unbounded input from the peer", "anchors": ["adapters/httpapi_mbed.cpp:HTTPAPI_ExecuteRequest"]}
{"id": "C199", "title": "mbed HTTP: pipelined well-formed replies", "statement": "For well-formed replies, however split into pieces, each request of a sequence is given its own reply's status, headers and body, and no byte after a reply is consumed.", "quantifier": "all replies of the grammar, splits and lengths of the sequence", "why_tests_cant": "all splits of all replies", "anchors": ["adapters/httpapi_mbed.cpp:HTTPAPI_ExecuteRequest", "adapters/httpapi_mbed.cpp:readLine", "adapters/httpapi_mbed.cpp:readChunk"]}
{"id": "C200", "title": "Windows HTTP requests have no undefined behaviour", "statement": "HTTPAPI_ExecuteRequest on a connection that was made has no undefined behaviour, whatever WinHTTP answers.", "quantifier": "all requests with headers without NUL, answers of WinHTTP and outcomes of allocation", "why_tests_cant": "all failures of WinHTTP and memory", "anchors": ["adapters/httpapi_winhttp.c:HTTPAPI_ExecuteRequest"]}
{"id": "C201", "title": "Schannel reports each close at most once", "statement": "The end of a close is reported at most once for each close of the underlying io.", "quantifier": "all executions, with calls from callbacks", "why_tests_cant": "all schedules of events and calls from callbacks", "anchors": ["src/tlsio_schannel.c:tlsio_schannel_close", "src/tlsio_schannel.c:on_underlying_io_close_complete"]}
{"id": "C202", "title": "Socket io calls are defined until destroy", "statement": "After every history on a socket io that is not destroyed every further call, with a buffer at least as long as its size says, has no undefined behaviour.", "quantifier": "all histories of calls and kernel answers", "why_tests_cant": "all histories", "anchors": ["adapters/socketio_berkeley.c"]}
{"id": "C203", "title": "TLS opens end when the underlying io fails", "statement": "Once the underlying io reported an error, every open made so far on an OpenSSL io had its callback, exactly once.", "quantifier": "all histories of the io, all behaviours of OpenSSL and the underlying io", "why_tests_cant": "all points at which the underlying io fails", "anchors": ["src/tlsio_openssl.c:on_underlying_io_error", "src/tlsio_openssl.c:tlsio_openssl_open"]}
{"id": "C204", "title": "Hashing by different algorithm files in threads", "statement": "Threads hashing with algorithms implemented in different files all compute the digest of their own input, in every interleaving.", "quantifier": "all messages, numbers of threads and interleavings", "why_tests_cant": "all schedules", "anchors": ["src/sha1.c", "src/sha224.c", "src/sha384-512.c"]}
{"id": "C205", "title": "Threads start and end without undefined behaviour", "statement": "In every history in which a thread is joined at most once and no pthread_join fails, creating, running, ending and joining threads touches no memory it must not.", "quantifier": "all histories and orders of threads", "why_tests_cant": "all schedules", "anchors": ["adapters/threadapi_pthreads.c:ThreadAPI_Create", "adapters/threadapi_pthreads.c:ThreadAPI_Join"]}
{"id": "C206", "title": "TrustedCerts changes the set of trusted certificates by what it reports", "statement": "TrustedCerts on a stack whose first TLS io is of OpenSSL adds exactly the first certificate of the text when it returns 0 and changes nothing otherwise; of wolfSSL, returns 0 exactly when the library took the certificates.", "quantifier": "all stacks, texts and failures", "why_tests_cant": "all failures of the libraries", "anchors": ["src/tlsio_openssl.c:tlsio_openssl_setoption", "src/tlsio_wolfssl.c:tlsio_wolfssl_setoption"]}
{"id": "C207", "title": "Tokens with several delimiters", "statement": "With memory available and a non-empty delimiter string, the successive calls of STRING_TOKENIZER_get_next_token give these tokens and then fail for ever: the delimiters at the head of the rest of the text are skipped; the token ends at the first occurrence of that delimiter which is listed first among those that occur in the rest, and at the end of the text if none does; the next token is looked for after that delimiter. This determines the tokens.", "quantifier": "every text, every non-empty delimiter string, every number of calls", "why_tests_cant": "the combinations of several delimiters, in the order of the list and of the text, are unbounded", "anchors": ["src/string_tokenizer.c:STRING_TOKENIZER_get_next_token", "src/string_tokenizer.c:STRING_TOKENIZER_create_from_char"]}
{"id": "C208", "title": "C++ mocks: every kind of expectation in any order", "statement": "With the unordered and the nice comparer the first expectation that a call concerns decides about it: one that ignores all calls allows it; one that still asks for calls is met once more; one of exactly so many calls that has them all, or of no call, makes it a call too many; expectations that only say what to do decide nothing. The mock does what the last matching expectation of that last kind says, or else the expectation met. The strict comparer reports all calls too many, the nice one those for expectations of exactly so many; every expectation that still asks for calls is reported missing with their number. This determines the answers and the reports.", "quantifier": "every history of expectations of any kind and calls", "why_tests_cant": "the combinations of kinds, counts and orders are unbounded", "anchors": ["testtools/micromock/inc/strictunorderedcallcomparer.h:MatchCall", "testtools/micromock/inc/nicecallcomparer.h", "testtools/micromock/src/mockcallrecorder.cpp:RecordActualCall"]}
{"id": "C209", "title": "C++ mocks: every kind of expectation in order", "statement": "With the ordered comparer only the first expectation not yet passed over can be met, where those that only say what to do are passed over. It is passed over when the last of its calls came, which it answers itself; other calls are answered by the last matching expectation that only says what to do, or else by the one they meet. One that ignores all calls, and one of no calls, is never passed over: no expectation after it can be met. Calls that do not fit are reported as unexpected, expectations that still ask for calls as missing with their number. This determines the answers and the reports.", "quantifier": "every history of expectations of any kind and calls", "why_tests_cant": "the combinations of kinds, counts and orders are unbounded", "anchors": ["testtools/micromock/inc/strictorderedcallcomparer.h:MatchCall", "testtools/micromock/src/mockcallrecorder.cpp:RecordActualCall"]}
{"id": "C210", "title": "Test mutexes exclude", "statement": "At any moment at most one thread has a test mutex; acquire returns exactly when no other thread has it, and returns 0 then; release says success exactly to the thread that has it, which may acquire it repeatedly and has it until it released it as often.", "quantifier": "every interleaving of acquires, releases and ends of threads", "why_tests_cant": "tests try a few interleavings of a few threads", "anchors": ["testtools/testrunnerswitcher/src/testmutex.c: testmutex_create, testmutex_acquire, testmutex_release", "testtools/micromock/src/micromocktestmutex.cpp: MicroMockCreateMutex, MicroMockAcquireMutex, MicroMockReleaseMutex"]}
{"id": "C211", "title": "Leaks are reported by the last process running tests", "statement": "With test suites running in any number of processes at once, DEINITIALIZE_MEMORY_DEBUG reports memory leaks exactly when no other process is between INITIALIZE_MEMORY_DEBUG and DEINITIALIZE_MEMORY_DEBUG, and INITIALIZE_MEMORY_DEBUG does not wait while fewer than a million are.", "quantifier": "every number of processes and every interleaving of their steps, including processes that are killed", "why_tests_cant": "the interleavings of processes are not under a test's control", "anchors": ["testtools/testrunnerswitcher/inc/testrunnerswitcher.h: INITIALIZE_MEMORY_DEBUG, DEINITIALIZE_MEMORY_DEBUG", "testtools/micromock/src/micromocktestmutex.cpp: MicroMockCreateGlobalSemaphore, MicroMockAcquireGlobalSemaphore, MicroMockReleaseGlobalSemaphore, MicroMockDestroyGlobalSemaphore"]}
{"id": "C212", "title": "The Schannel io calls the callbacks it was last given", "statement": "Whenever the Schannel io calls an open-complete, bytes-received or error callback it is the one, with its context, given to the last open that reached the underlying io; a close-complete callback is the one given to the last close that reached it.", "quantifier": "every history of calls, underlying-io events, Schannel answers and re-entrant calls", "why_tests_cant": "depends on the whole history of opens and closes, and on calls from within callbacks", "anchors": ["adapters/tlsio_schannel.c: tlsio_schannel_open, tlsio_schannel_close, indicate_error, on_underlying_io_bytes_received"]}
{"id": "C213", "title": "The mbed socket io calls the callbacks it was last given", "statement": "Whenever the mbed socket io calls the bytes-received or error callback it is the one given to the last open that returned 0; the open-complete callback is called only within the open it was given to, the close-complete callback only within the close it was given to, and a send-complete callback only if a send so far had it.", "quantifier": "every history of calls, also from within callbacks, and every answer of the connection", "why_tests_cant": "depends on the whole history of opens, closes and failed opens", "anchors": ["adapters/socketio_mbed.c: socketio_open, socketio_close, socketio_send, socketio_dowork"]}
