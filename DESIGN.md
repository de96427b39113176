# Formal model of azure-c-shared-utility: design

## Approach

* One group of Coq files per C file (or small group of C files):
  `X_Model.v` (the code, function by function, every definition citing file and
  lines), `X_Spec.v` (a small independent specification, when the property needs
  one), `X_Proofs.v` (lemmas), `X_Props.v` (the property theorems, each closed by
  `exact`, with `Print Assumptions` and a concrete instance).
* `Base.v` holds the shared vocabulary: bytes are `N` below 256, a C string is
  the list of its non-zero characters, a memory block is a list of cells
  (`None` = never written), an out-of-bounds access is *undefined behaviour* and
  is the distinct outcome `None` of the monad `M`; `malloc`/`realloc` answers
  come from an *oracle* (a list of booleans, all patterns quantified over).
* A property the code violates is stated as `..._refuted : exists ...` with a
  witness, next to the strongest true statement, suffixed `_partial`.

## Plan per property

| id | modelled | proof |
|----|----------|-------|
| C01 C02 C04 | base64.c encoder and decoder with their allocations and block writes; RFC 4648 on bits as spec | induction 3 bytes / 4 symbols at a time, bit operations turned into arithmetic, 64/256-case sweeps for tables |
| C03 | same; undefined behaviour = write outside the block | refutation by witness, general theorem for all unpadded texts; partial positive theorem for lengths multiple of 4 |
| C05 C06 | urlencode.c, both passes, per-byte tables; percent-decoder + UTF-8 reader as spec | 256-case sweep lifted by induction on the text |
| C07 C08 | strings.c as operations on a store of handles (memory blocks incl. terminator), allocation oracle | simulation with a store of character lists, induction on the history |
| C09 | STRING_new_JSON's counting and writing passes; JSON string reader as spec | induction on the text, 128-case sweep |
| C10 | overlapping memcpy modelled as undefined behaviour | refuted by witness, in general for every non-empty text |
| C11 | STRING_compare over strcmp | order laws by induction |
| C12 C13 | STRING_TOKENIZER_get_next_token on text and position; `split` as spec | C12 refuted for several delimiters, proved for one; C13 by invariants |
| C14 C15 | crt_abstractions.c copies on memory blocks, integer conversions | induction, arithmetic on digits |
| C16 C17 C18 | buffer.c over a store of handles, 64-bit wrap explicit | simulation; C18 refuted at 2^64 |
| C19 C20 | list.c on a heap of nodes (address -> item, next) | list-segment invariant, induction on the history |
| C21 C22 | doublylinkedlist.c on a heap of (Flink, Blink) | ring invariant, induction on the history |
| C23 C24 C25 | vector.c as a block of elements; pointers as (storage, byte offset) | simulation; C24/C25 refuted |
| C26-C31 | map.c with parallel arrays and allocation oracle | simulation with an association list; C29 refuted |
| C32 C33 | refcount of constbuffer.c/constmap.c/refcount.h, 32-bit counter, thread interleavings as a history of atomic steps | invariant counter = number of live references; C33 refuted at 2^32 |
| C34 C35 | constbuffer.c, constmap.c over map.c's model | direct; via C30 |
| C36-C38 | httpheaders.c over map.c's model | invariant over histories; parts refuted |
| C39-C41 | gballoc.c's tracking list and counters; interleaving of two calls for C41 | invariant over histories; C40, C41 refuted |
| C42-C44 | sha1.c, sha224.c, sha384-512.c, usha.c with 32/64-bit words in N; FIPS 180 spec on bit/byte strings | buffer invariant over Input calls, padding arithmetic, schedule/rounds equality |
| C45 | small-step interleaving of two Input calls sharing the static variable | refuted by a schedule |
| C46 C47 | hmac.c, hmacsha256.c over the hash model | via C42 |
| C48 C49 | sastoken.c composed from the above | composition |
| C50-C55 | httpapiex.c retry loop as a state machine over an oracle of low-level results, with a trace of calls; options; headers; httpapiexsas.c | measure for termination, trace invariant |
| C56 | xio.c as dispatcher with a trace of concrete calls | case analysis |
| C57-C60 | socketio_berkeley.c send/dowork/close over an oracle of kernel results | C57-C59 refuted, partial theorem for runs without partial dowork sends |
| C61 | tlsio_openssl.c state machine over events | invariant / refuted in part |
| C62 C82 | uniqueid_stub.c and uniqueid's text form; 16 octets of rand() | sweep over octets, induction on positions; parts refuted |
| C63 C83 C84 | condition_pthreads.c, lock_pthreads.c as the calls they make; POSIX mutex/condition machine for the wake-up property | arithmetic on 32/64-bit values; invariant over all interleavings of any number of threads |
| C64 C85 | threadapi_pthreads.c: instances, wrapper, join, sleep | invariant over histories; parts refuted |
| C93-C97 | socketio_berkeley.c under re-entrant callbacks (SocketIoRe_*): control made explicit as a stack of running callbacks, entries as blocks with identity | invariants over a small-step machine; for the rules, refutation at every reachable state that breaks them |
| C98-C103 | tlsio_wolfssl.c (WolfIo_*): wolfSSL an arbitrary machine that calls the registered functions, environment that re-enters the io to any depth | a program logic (weakest preconditions with an invariant kept at every call out and a preorder kept by every call); refutations by symbolic execution for every engine with the described behaviour |
| C104 | create/destroy of tlsio_wolfssl.c and its receive block (WolfIo_Create) | case analysis on the failures, invariant on the block |
| C105-C108 | httpapi_mbed.cpp: ExecuteRequest with readLine/readChunk/skipN/conn_send_all over WolfSSLConnection (HttpApiMbed_*): the network is a byte sequence and a schedule of piece sizes, errors and ends | responses as a grammar in HttpApiMbed_Spec, completeness by induction over the grammar, soundness by induction over the reader; refutations by computation |
| C109-C110 | Create/Close/SetOption/CloneOption and WolfSSLConnection's load_certificate/connect/close (HttpApiMbed_Handle) | invariant over histories of operations |
| C111 | tickcounter_win32.c, tickcounter_mbed.cpp (TickPort_*); tickcounter_tirtos.c is the text of tickcounter_linux.c | induction over the reads with the accumulated rounding error |
| C116-C121 | tlsio_schannel.c (SchannelIo_*): events in any order, with the calls the io makes left open as frames so that user and underlying io may call back | invariants over all event sequences; C116 against a decoder of records given from outside |
| C122-C126 | socketio_mbed.c (SocketMbed_*): calls, answers of the connection and returns of callbacks as events in any order | invariants over all event sequences (frames, queue, streams, sessions); refutations for all messages |
| C127-C131 | socketio_win32.c (SocketWin_*): as for mbed, with WSAGetLastError as part of each answer | invariants over all event sequences; C130 for every execution without conditions |
| C132-C134 | lock_win32.c, lock_rtx_mbed.cpp, condition_rtx_mbed.cpp, platform_win32.c, platform_mbed.cpp (LockPort_*): the API over a recursive mutex used by any number of threads | induction over all interleavings; case analysis on outcomes |
| C135-C138 | httpapi_tirtos.c (HttpTirtos_*): the request over scripts of everything HTTPCli, realloc and the buffer answer | induction over the pieces of headers and body; refutations for all responses |
| C139-C144 | httpapi_winhttp.c (HttpWin_*): the request over scripts of everything WinHTTP, malloc and the header and buffer modules answer; blocks and handles are counted | strcat over blocks, induction over chunks and tokens, case analysis on every failure; invariant over histories of Init and Deinit |
| C145-C149 | httpapi_wince.c (HttpCe_*): the certificate hook over lists of certificates in stores; connecting, SSLInit, handles and start over scripts of the platform's answers, with a trace of what the platform is told; the exchange itself is that of HttpApiMbed_Model.v | induction over stores; an invariant of all histories (each socket held by one handle, its set-up in the trace); counterexamples for unresolved names and numeric hosts |
| C150-C152 | options through a stack of ios: a stack is a list of TLS ios over a socket or an application's io; induction on the list and on the history of calls; OpenSSL's objects as a trace of uses, library failures as adversarial answers |
| C153 | type names of the mocking library on memory; a scanner automaton for both passes, related to words and stars by induction on the string |
| C154 | the registry as a table from words and stars to functions; refinement over histories, malloc failures marked in the specification |
| C155-C157 | umock_c, umockcall and umockcallrecorder: calls in a heap, an adaptive test program as an inductive tree, the call data's functions as a world given at each step; simulation by a specification with owned, met, pending, unexpected and destroyed calls; what equal strings mean by induction on the calls made, counterexamples by running the model |
| C158-C162 | the functions the preprocessor makes of umock_c_internal.h for a mock, over the library model of C155: text of buffers and arguments by induction with cell-exact blocks; a specification of a test (due, done and unexpected calls with what is wanted of each argument) and a simulation for every adaptive test; counterexamples by running the model |
| C163-C165 | ctest.c and the macros of ctest.h: functions of a suite as state transformers that may end in a failed assertion (longjmp); the events of a run | relation `suite_goes` in Ctest_Spec, induction over the list of functions; counterexamples by evaluation |
| C166-C168 | umocktypes_c.c and umocktypes_charptr.c: printf decimal and %f texts in a 32 byte buffer, strings in blocks | numerals are read back by `value` (UMockC_Spec); induction on the digits; counterexamples by evaluation |
| C169-C171 | micromock: call recorder and the three comparers over lists of expected and actual calls | inductive relations `any_order`, `in_order` in MicroMock_Spec (slots used up by calls); invariant over the history; counterexamples by evaluation |
| C172 | macro_utils.h: the functions DEFINE_ENUM_STRINGS generates, over the list of names | induction over the names; the table is a list, a read outside it undefined |
| C173 | mockcallargument.h: AddBufferValidation, operator==, the mask and the texts | the sorted list by its permutation; induction over the pieces |
| C174 | mockcallargument.h: AddCopyOutArgumentBuffer, CopyOutArgumentDataFrom | induction over the pieces |
| C175 | timediscretemicromock.h: scheduling and running; callNArg: operator(), SetTime, PlayTick | invariant over the schedule: order numbers of a tick are 0..k-1 and each is played once |
| C176 | micromockcharstararenullterminatedstrings.h: construction, SetValue, equality, text | cases on NULL, strcmp of C03 |
| C177 | timediscretemicromock.h: the players shared by all mocks | as C175, with one owner; counterexamples run |
| C178–C191 | the clauses of C113, C119, C124, C129, C137, C143, C36, C58, C62, C91, C104, C132, C120, C152 that are true of the code, each on its own | the theorems of those properties without the refuted clause |
| C192–C194 | mockvalue.h (arrays, wide strings), valueHolder of timediscretemicromock.h (MockVal_*): blocks with identity | invariants: exactly the blocks of the values are live, each value means what was given; injectivity of the printed texts |
| C195, C196 | globalmock.h, threadsafeglobalmock.h (MockVal_*) | induction over lifetimes |
| C197–C206 | clauses of C23, C107, C106, C142, C118, C60, C61, C45, C64, C151 that are true of the code, each on its own | the theorems of those properties without the refuted clause |
| C207 | the tokenizer with any list of delimiters | inductive specification of the tokens, shown to determine them; induction on the number of calls |
| C208 | the unordered and nice comparers with every kind of expectation | inductive specification over entries (expectation, calls still asked for), shown to determine the result; induction on the history with a pointwise relation between expected calls and entries |
| C209 | the ordered comparer with every kind of expectation | inductive specification with the entries passed over and those left, shown to determine the result; induction on the history |
| C210 | testmutex.c, micromocktestmutex.cpp | a Windows mutex with its owner, count and abandonment; histories of threads with what they were told; invariant, and the abandoned mutex refuted |
| C211 | the MEMORY_DEBUG macros of testrunnerswitcher.h | the shared semaphore with its open handles and the stage of each process; invariant: the count is a million less the processes that run tests; a killed process refutes |
| C212 | the Schannel io with the events each step makes | the callbacks registered are computed from the history alone; each function keeps them and calls only them |
| C213 | the mbed socket io with the events each step makes | as C212, with the callbacks of the queue among those of earlier sends |
| C112, C115 | threadapi_rtx_mbed.cpp (ThreadMbed_*): slots, mailboxes, any interleaving | invariants over executions, a one-to-one invariant over orderly ones |
| C113, C114 | threadapi_c11.c, threadapi_win32.c, uniqueid_win32.c (Ports_*) | case analysis on the answers of the system, for every set of handles |
| C90-C92 | C11 locks, conditions, sleep; uniqueid_linux.c | arithmetic; call traces; 256-value digits |
| C65-C67 C86-C89 | httpapi_curl.c over a model of libcurl's documented options, an arbitrary script of deliveries and answers | total-correctness lemma per function, then histories; parts refuted |
| C68 | tickcounter_linux.c with exact rounding to 53-bit doubles | monotonicity of rounding |
| C69-C72 | aliasing, realloc(p,0) and overflow corner cases of map.c, httpheaders.c, gballoc.c, sha | refuted for every instance |
| C73 | httpapiex.c: temporaries and the objects it may touch | trace invariant |
| C74-C76 | socketio_berkeley.c: descriptor ownership, receive path, progress | invariants over histories; C76 refuted in part |
| C77-C81 | tlsio_openssl.c: one report of success, callbacks, byte flow, create/destroy | event-loop invariant for arbitrary OpenSSL and underlying io |

(Rows beyond C68 were added while the model grew.)

## Trusted base

* Coq 8.16.1's kernel; the gate also re-checks the compiled files with coqchk. No plugin, no
  `-type-in-type`, no disabled check, no functors or module types.
* `Print Assumptions` answers "Closed under the global context" for every theorem named in
  MANIFEST.json (`tools/assumptions.py` repeats this; last output in `tools/assumptions.txt`).
  coqchk additionally lists the standard library's `Coq.ssr.ssrunder.Under_rel.*` constants,
  which are loaded with the standard library's arithmetic tactics and used by no theorem.
* The reading of the C text. The model is hand-written from /repo, nothing was executed; every
  definition cites the lines it models. An LP64 platform with glibc and 8-bit char is assumed.
* C semantics are those written in the models: memory blocks with bounds, `None` for undefined
  behaviour, wrap-around at 2^32/2^64 where the type says so, allocation answers from an oracle.

### Modelled, and simplifications

| files | modelled | simplified or left out |
|---|---|---|
| src/base64.c, urlencode.c, crt_abstractions.c, string_tokenizer.c, strings.c | all functions on memory blocks | `sprintf` formatting itself (its result text is an argument); sources do not overlap destinations except where a property is about that |
| src/buffer.c, list.c, doublylinkedlist.c, vector.c | all functions | glibc's `realloc(p,0)` frees; addresses handed out are not reused in the list model; match/predicate functions are pure; vector offsets stay meaningful after realloc |
| src/map.c, constmap.c, constbuffer.c, httpheaders.c, refcount.h | all functions | map sizes do not overflow size_t; filters are pure; atomics sequentially consistent, `REFCOUNT_ATOMIC_DONTCARE` not modelled; header values are NULL, a text, or a stored value; the two out-of-memory codes of httpheaders are merged in the refinement |
| src/gballoc.c | all functions; interleavings of two calls at the lock | addresses not reused while listed; lock failure as an oracle |
| src/sha1.c, sha224.c, sha384-512.c, usha.c, hmac.c, hmacsha256.c | all functions, all five digests, final bits | `USE_32BIT_ONLY`, `USE_MODIFIED_MACROS` not modelled; HMAC key and payload do not alias the result; ShaRace: accesses to `addTemp` are atomic, one Input per thread |
| src/sastoken.c, httpapiexsas.c | all functions | buffers in stores of their own; times -3600..2^53-3600 (doubles exact) for the SAS refresh |
| src/httpapiex.c | all functions; the layer below is any list of answers | one handle; vector as a list; request and response objects distinct |
| src/xio.c | all functions | interface description constant |
| adapters/socketio_berkeley.c | all functions but keep-alive options | one io; callbacks that call back into the io are in SocketIoRe_Model (one step per call, per callback return, per round of the loops), not in SocketIo_Model; kernel `send` takes at most 2^31 bytes; `socket()` fails with -1 only |
| src/tlsio_wolfssl.c | create, destroy, open, close, send, dowork, every callback | setoption in IoOptions_Model; the static options not modelled; no destroy from inside a call of the io; the receive block is the list of its bytes in WolfIo_Model (blocks with identity in WolfIo_Create); the underlying io delivers at least one byte at a time; counts below 2^31 |
| src/tlsio_openssl.c | create, destroy, open, close, send, dowork, all callbacks | setoption in IoOptions_Model; global init and thread locks not modelled; memory BIOs are byte queues; OpenSSL is an arbitrary state machine; the io is not destroyed inside its own callbacks; sends below 2^31 |
| adapters/condition_pthreads.c, lock_pthreads.c, threadapi_pthreads.c, tickcounter_linux.c, uniqueid_stub.c | all functions | CLOCK_MONOTONIC available; failures of pthread attribute functions ignored as in the code; ThreadAPI_Exit only in created threads; `time()` as integers |
| adapters/lock_c11.c, condition_c11.c, uniqueid_linux.c, sleep of threadapi_c11.c | all functions | libuuid's text form and the C11 calls by their documentation |
| adapters/httpapi_curl.c | all functions but the log | libcurl by its documentation: options are a record, a failing setopt changes nothing, a transfer is any script of header lines and pieces; header objects by the specification proved of httpheaders.c; request, response headers and response buffer distinct |
| adapters/httpapi_mbed.cpp, wolfssl_connection.cpp | all functions | 32-bit int and size_t; one connection; sscanf, sprintf by the C standard with values out of range clamped as newlib does; wolfSSL_read and write by a schedule; uninitialised heap bytes are None; header objects by the specification proved of httpheaders.c |
| adapters/tickcounter_win32.c, tickcounter_mbed.cpp, threadapi_rtx_mbed.cpp, threadapi_c11.c, threadapi_win32.c, uniqueid_win32.c | all functions but ThreadAPI_Exit/Sleep forwarding | the system's answers are arguments; 32-bit unsigned clock_t on mbed; `new` does not fail; RTX mailboxes and Win32 handles by their documentation |
| src/tlsio_schannel.c | all functions but dowork (forwarding); setoption in IoOptions_Model | the answers of Schannel, malloc and the underlying io are part of the events; DecryptMessage leaves the buffer as it is until the record is consumed; DWORD counts unbounded; the log is left out |
| adapters/socketio_mbed.c, adapters/tcpsocketconnection_c.cpp | create, destroy, open, close, send, dowork | one io; the pending list is a sequence, removing what is there succeeds; `new` does not fail; sizes fit an int; NULL arguments left out |
| adapters/socketio_win32.c | destroy, open, close, send, dowork and the state create makes | one io; the pending list is a sequence; a socket handle is a number never used twice; sizes fit an int; NULL arguments left out |
| adapters/lock_win32.c, lock_rtx_mbed.cpp, condition_rtx_mbed.cpp, platform_win32.c, platform_mbed.cpp | all functions | CRITICAL_SECTION and RTX Mutex as recursive mutexes by their documentation; InitializeCriticalSection raises no exception; connect needs init |
| adapters/httpapi_tirtos.c | all functions but SetOption and CloneOption (which only return HTTPAPI_INVALID_ARG) | HTTPCli's answers are a script; it hands over 1 to 128 bytes of a header at a time; the request headers are a list of pairs (src/httpheaders.c is modelled apart) |
| adapters/httpapi_winhttp.c | all functions | WinHTTP's answers are a script; the code page is one to one; sizes do not overflow size_t; the log is left out |
| adapters/httpapi_wince.c | all functions | the exchange after connecting is taken from the model of httpapi_mbed.cpp, whose text is the same up to send/recv and log lines; the platform's answers are a script; the log is left out (its last line prints a handle as text); operator new does not fail |
| setoption of src/xio.c, src/tlsio_*.c, adapters/socketio_*.c | all, in IoOptions_Model | the PEM reader is a parameter, the failures of the libraries are adversarial; wolfSSL takes some prefix of the certificates |
| testtools/umock_c/src/umocktypename.c, umocktypes.c | all, in UMockName_Model, UMockTypes_Model | isspace of the C locale; registered functions adversarial |
| testtools/umock_c/src/umockcall.c, umockcallrecorder.c, umock_c.c | all, in UMock_Model | the data functions' answers are parameters of each step; the error callback of reset is never called (shown by the model having none) |
| testtools/umock_c/inc/umock_c_internal.h | the functions generated for a mock with n arguments and an optional result: stringify_buffer, call data stringify/are_equal/free, expected calls, the mock itself, all modifiers, in MockFn_Model | an argument is a number identifying its value; umocktypes_copy succeeds; the types' functions and the test's memory are parameters of each step; CopyOutArgument/IgnoreAllCalls are empty in the code; macros themselves are not expanded by a preprocessor model |
| testtools/ctest/src/ctest.c, inc/ctest.h | Ctest_Model | RunTests, the comparisons and texts of the int, char*, size_t asserts; printf output is a list of events; setjmp/longjmp is the boolean a function ends with |
| testtools/umock_c/src/umocktypes_c.c, umocktypes_charptr.c | UMockC_Model | all functions but the registration (UMock_Model) and free; char is signed; floats are m*2^e, infinities, NaN; zero has no sign |
| testtools/micromock: mockcallrecorder.cpp, mockmethodcallbase.cpp (operator==), mockmethodcall.h, strictunorderedcallcomparer.h, strictorderedcallcomparer.h, nicecallcomparer.h | MicroMock_Model | not: locks, destructors, argument buffers, texts of arguments, time-discrete mocks, exceptions |
| inc/azure_c_shared_utility/macro_utils.h | MacroEnum_Model | only DEFINE_ENUM_STRINGS; the counting macros are taken to list the constants |
| testtools/micromock/inc/mockcallargument.h | MockArg_Model | the values compared and ignored are two booleans; texts are lists of tokens |
| testtools/micromock/inc/timediscretemicromock.h, timediscretemicromockcallmacros.h | TimeMock_Model | called functions and tasks are events; arguments are a number (valueHolder is in MockVal_Model) |
| testtools/micromock/inc/micromockcharstararenullterminatedstrings.h, src/….cpp | MockStr_Model | char* only, the class for const char* is a copy of it |
| testtools/micromock/inc/mockvalue.h, globalmock.h, threadsafeglobalmock.h, valueHolder of timediscretemicromock.h | MockVal_Model | array, wide string and pointer values; elements are copied without exceptions; copying indeterminate members is harmless; each interlocked exchange is one step; not: values of doubles as text, the retrieval in GetSingleton racing with a destructor |
| testtools/testrunnerswitcher/src/testmutex.c, inc/testrunnerswitcher.h:94-119, testtools/micromock/src/micromocktestmutex.cpp | TestMutex_Model | the Windows branches; the kernel's objects behave as documented, their creation does not fail; CreateSemaphore's handle is closed by DEINITIALIZE_MEMORY_DEBUG or the end of the process |

Not modelled: httpapi_wininet.c (which calls HTTPHeaders_GetHeader with four arguments and cannot be compiled against this httpheaders.h), the gb_stdio/gb_time wrappers,
platform_linux.c and platform_tirtos.c, agenttime.c (plain forwarding) and the logging headers.

### Properties the code violates

Every `..._refuted` theorem is a statement about the model of the code as it is; MANIFEST.json's
notes say which part of each property is false and which part is proved (`..._partial`).
