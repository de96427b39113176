{"claims": [
 {"property": "C01", "status": "proved", "theorems": ["base64_round_trip"], "note": ""},
 {"property": "C02", "status": "proved", "theorems": ["base64_encode_rfc4648", "base64_encode_bytes_rfc4648", "base64_length"], "note": ""},
 {"property": "C03", "status": "partial", "theorems": ["base64_decoder_safe_refuted", "base64_decoder_unpadded_overflows", "base64_decoder_defined_refuted", "base64_decoder_in_bounds_partial"], "note": "false of the code: texts whose length is not a multiple of 4 overflow the block; proved in bounds otherwise"},
 {"property": "C04", "status": "proved", "theorems": ["base64_decode_canonical", "base64_text_is_canonical", "base64_injective"], "note": ""},
 {"property": "C05", "status": "proved", "theorems": ["url_encode_string_correct", "url_encode_correct", "url_encode_injective", "url_encode_plain_unchanged"], "note": ""},
 {"property": "C06", "status": "proved", "theorems": ["url_encode_string_correct", "url_encode_correct"], "note": ""},
 {"property": "C07", "status": "proved", "theorems": ["strings_refine_texts", "strings_refine_texts_no_failure", "strings_other_handles_untouched"], "note": ""},
 {"property": "C08", "status": "proved", "theorems": ["strings_failure_changes_nothing", "strings_defined_under_alloc_failure"], "note": ""},
 {"property": "C09", "status": "proved", "theorems": ["new_JSON_reads_back", "json_literal_reads_back"], "note": ""},
 {"property": "C10", "status": "partial", "theorems": ["concat_self_undefined_refuted", "concat_self_loses_terminator_refuted"], "note": "false of the code: overlapping memcpy for every text; an ascending copy loses the terminator"},
 {"property": "C100", "status": "partial", "theorems": ["wolf_send_callback_partial", "wolf_send_callback_twice_refuted", "wolf_send_callback_stale_refuted"], "note": "refuted: the callback is handed over once per record, and again with records wolfSSL writes of its own; proved: it is always that of the last send given to wolfSSL"},
 {"property": "C101", "status": "partial", "theorems": ["wolf_open_reported_partial", "wolf_open_reported_twice_refuted", "wolf_open_stuck_refuted"], "note": "refuted: the handshake is started both by open and when the underlying io reports that it is open, so success is reported twice, or the io is stuck in the handshake; proved: no more successes than openings asked for and reported"},
 {"property": "C102", "status": "partial", "theorems": ["wolf_opened_once_in_a_life", "wolf_reopen_refuted"], "note": "refuted for every run: the state is never NOT_OPEN again, so at most one open in the life of an io gets past the underlying open"},
 {"property": "C103", "status": "partial", "theorems": ["wolf_dowork_returns_partial", "wolf_dowork_never_returns_refuted", "wolf_closed_dowork_refuted", "wolf_open_never_returns_refuted"], "note": "refuted: the receive loop only stops when bytes come or the io is open; dowork on a closed io, and open when the underlying io fails during the handshake, spin for ever"},
 {"property": "C104", "status": "partial", "theorems": ["wolf_destroy_releases_everything", "wolf_failed_create_partial", "wolf_failed_create_leaks_refuted"], "note": "refuted: the underlying io is leaked when wolfSSL_new fails; everything else proved"},
 {"property": "C105", "status": "partial", "theorems": ["request_sent_partial", "request_sent_refuted", "conversions_32"], "note": "proved when every send takes all its bytes or fails (the other case loses bytes and returns HTTPAPI_OK: refuted)"},
 {"property": "C106", "status": "partial", "theorems": ["reply_read", "replies_in_order", "spaced_coding_refuted", "trailer_refuted", "confusion_refuted"], "note": "proved for every reply of the given grammar, any split, any number of requests; refuted for a space after the coding and for trailers, and after a failure the next request reads the rest of the old response"},
 {"property": "C107", "status": "partial", "theorems": ["request_ends", "no_undefined_partial", "ok_means_partial", "receive_error_undefined_refuted", "receive_error_ok_refuted", "no_memory_undefined_refuted", "used_buffer_undefined_refuted", "wrap_undefined_refuted", "alloc_failed_never_returned"], "note": "proved: it always returns; without receive errors, with memory, an empty buffer and countable lengths there is no undefined behaviour and OK means a response; each of these conditions is shown necessary"},
 {"property": "C108", "status": "partial", "theorems": ["truncated_chunked_partial", "truncated_sized_refuted"], "note": "proved for chunked responses; a sized content that is cut is returned as HTTPAPI_OK with bytes never written"},
 {"property": "C109", "status": "partial", "theorems": ["handle_life_partial", "session_leak_refuted", "failed_handshake_leak_refuted", "option_stored", "option_refused", "option_copied", "late_certificate_unused"], "note": "the socket is closed and the context freed unless a session still holds it; the session of a connected handle is leaked in every history (refuted)"},
 {"property": "C11", "status": "proved", "theorems": ["compare_orders_texts", "compare_total_order", "compare_null"], "note": ""},
 {"property": "C110", "status": "partial", "theorems": ["connection_kept", "try_again_partial", "never_again_refuted"], "note": "a connection is kept; after a failed connect that left the socket open no later request ever connects (refuted)"},
 {"property": "C111", "status": "partial", "theorems": ["win_elapsed_partial", "win_drift_refuted", "win_long_pause_refuted", "win_errors", "win_backup_same", "mbed_elapsed_partial", "mbed_exact", "mbed_long_pause_refuted", "mbed_ticker_wrap_refuted", "win_create_reads"], "note": "proved: bounds on the error for reads not too far apart, monotone, exact on mbed where a tick is a whole number of milliseconds; refuted: a microsecond is lost per read on Windows (a busy reader's counter stands still), long pauses overflow on both"},
 {"property": "C112", "status": "partial", "theorems": ["mbed_thread_runs_its_function", "mbed_join_partial", "mbed_handles_distinct_partial", "mbed_handle_never_reused", "mbed_no_fifth_thread_refuted", "mbed_shared_handle_refuted", "mbed_return_never_joined_refuted"], "note": "proved when threads are created one after the other has begun; refuted: two threads share a handle otherwise, slots are never free again, a thread that returns is never joined"},
 {"property": "C113", "status": "partial", "theorems": ["c11_create_all_or_nothing", "c11_join_releases", "c11_join_twice", "win_join_releases", "win_create_partial", "win_create_failed_refuted"], "note": "C11 proved in full; on Windows a failed CreateThread is reported as THREADAPI_OK"},
 {"property": "C114", "status": "partial", "theorems": ["win_uid_partial", "win_uid_overread_refuted", "win_uid_refused", "win_uid_no_memory"], "note": "proved for exactly 37 bytes; every larger buffer makes memcpy read beyond the text"},
 {"property": "C115", "status": "proved", "theorems": ["mbed_sleep"], "note": ""},
 {"property": "C116", "status": "partial", "theorems": ["sch_stream_partial", "sch_timely_partial", "sch_stall_refuted", "sch_handshake_extra_lost_refuted", "sch_no_memory_lost_refuted", "sch_bad_record_silent_refuted", "sch_nested_lost_refuted"], "note": "order and completeness proved; false: records that come together wait for further bytes, bytes after the last handshake token or without memory are lost, a bad record is not reported"},
 {"property": "C117", "status": "partial", "theorems": ["sch_open_once_partial", "sch_open_twice_refuted", "sch_open_silent_refuted", "sch_handshake_failure_silent_refuted", "sch_failed_open_ignored_refuted", "sch_open_error_refuted"], "note": "at most once proved when xio_send does not call back; false otherwise, and several failures are never reported"},
 {"property": "C118", "status": "partial", "theorems": ["sch_close_at_most_once", "sch_close_reported_partial", "sch_close_stuck_refuted", "sch_close_in_send_refuted", "sch_close_opened_refuted", "sch_reopen_stale_refuted"], "note": "at most once proved for every execution, exactly once when undisturbed; false: close lost when xio_close fails or the open ends late, old bytes kept for the next session"},
 {"property": "C119", "status": "partial", "theorems": ["sch_send_chunks", "sch_send_part_refuted", "sch_send_empty_refuted"], "note": "pieces proved in full; false: a failed send may have sent the beginning, an empty send never calls back"},
 {"property": "C12", "status": "partial", "theorems": ["tokenizer_fields_partial", "tokenizer_fields_refuted", "tokenizer_first_listed_wins_refuted", "tokenizer_tokens", "listed_unique", "tokenizer_tokens_case"], "note": "proved when at most one delimiter character occurs in the text; false of the code with several, for which the tokens it does give are proved (C207)"},
 {"property": "C120", "status": "partial", "theorems": ["sch_create_clean", "sch_blocks_freed", "sch_credentials_partial", "sch_context_leak_refuted", "sch_credentials_leak_refuted"], "note": "blocks proved; false: security contexts and tokens are never given back, nor all but the last credential handle"},
 {"property": "C121", "status": "partial", "theorems": ["sch_safe_partial", "sch_nested_undefined_refuted"], "note": "proved unless bytes come in the middle of a delivery"},
 {"property": "C122", "status": "partial", "theorems": ["sm_safe_partial", "sm_close_in_callback_refuted", "sm_dowork_in_callback_refuted", "sm_reopen_undefined_refuted"], "note": "proved when callbacks only send and open comes only when closed; false: close in on_bytes_received, dowork in on_send_complete, an open that fails while open"},
 {"property": "C123", "status": "partial", "theorems": ["sm_stream_partial", "sm_partial_write_refuted"], "note": "proved when the connection takes each queued message whole or not at all; false: after a partial write of k bytes the last k bytes of the message go out twice, for every message and k"},
 {"property": "C124", "status": "partial", "theorems": ["sm_received", "sm_peer_close_silent_refuted"], "note": "bytes proved for every execution; false: the end or failure of the connection is never reported"},
 {"property": "C125", "status": "partial", "theorems": ["sm_sessions_partial", "sm_leak_refuted", "sm_open_twice_refuted"], "note": "proved when open comes only when closed; false: each close leaks the connection object, exactly as many as there were closes"},
 {"property": "C126", "status": "partial", "theorems": ["sm_stale_refuted", "sm_spin_refuted"], "note": "false: messages queued when the io is closed go to the next peer; dowork does not return while the connection takes nothing"},
 {"property": "C127", "status": "partial", "theorems": ["sw_safe_partial", "sw_dowork_in_callback_refuted", "sw_destroy_in_callback_refuted"], "note": "proved for all calls from callbacks but destroy, and dowork in the on_send_complete of a queued message; those two are undefined"},
 {"property": "C128", "status": "partial", "theorems": ["sw_stream_partial", "sw_partial_send_refuted", "sw_failed_send_refuted", "sw_dropped_refuted"], "note": "proved when sockets take all or nothing; false after a partial send, for every message and cut: sent again from its beginning, or refused with its beginning sent, or dropped silently"},
 {"property": "C129", "status": "partial", "theorems": ["sw_received", "sw_receive_error", "sw_nothing_quiet", "sw_peer_close_silent_refuted", "sw_error_after_close_refuted"], "note": "bytes and errors proved for every execution; false: the end of the stream is never reported, and an error follows a close made in on_bytes_received"},
 {"property": "C13", "status": "proved", "theorems": ["tokenizer_step", "tokenizer_bounded", "tokenizer_end_is_final", "tokenizer_null_arguments"], "note": ""},
 {"property": "C130", "status": "proved", "theorems": ["sw_sockets", "sw_sessions", "sw_open_sockets"], "note": "every execution, whatever is called from callbacks"},
 {"property": "C131", "status": "partial", "theorems": ["sw_stale_refuted", "sw_spin_refuted", "sw_accepted_reopen_refuted"], "note": "false: queued messages go to the next peer; dowork spins while the socket is full; an accepted io opened again connects to the machine itself"},
 {"property": "C132", "status": "partial", "theorems": ["lock_excludes", "lock_null", "lock_freed", "lock_foreign_unlock_refuted"], "note": "exclusion proved for any number of threads and every interleaving; false on Windows: an Unlock by a thread that does not have the lock is undefined instead of LOCK_ERROR"},
 {"property": "C133", "status": "partial", "theorems": ["mbed_condition_refuted"], "note": "false: Condition_Init always fails, Post always says COND_ERROR (also for NULL), Wait never waits"},
 {"property": "C134", "status": "proved", "theorems": ["mbed_platform", "win_platform", "platform_results"], "note": "all outcomes of the calls made"},
 {"property": "C135", "status": "proved", "theorems": ["tirtos_sends", "tirtos_ok_sent", "tirtos_invalid", "tirtos_codes"], "note": "every request; the fields go out last first"},
 {"property": "C136", "status": "partial", "theorems": ["tirtos_response_partial", "tirtos_response_no_buffer", "tirtos_headers_broken", "tirtos_body_cut_refuted", "tirtos_buffer_refuted"], "note": "proved for every chunking into an empty buffer; false: a body that is cut short by the network or by memory is given out with HTTPAPI_OK, and a buffer that is not empty ends up with unwritten bytes"},
 {"property": "C137", "status": "partial", "theorems": ["tirtos_defined", "tirtos_memory_partial", "tirtos_leak_refuted"], "note": "no undefined behaviour and nothing lost unless memory runs out; false when the block of a header cannot grow: it is lost"},
 {"property": "C138", "status": "proved", "theorems": ["tirtos_connections"], "note": "all outcomes of the library's calls"},
 {"property": "C139", "status": "proved", "theorems": ["win_headers_text", "win_headers_made"], "note": "every header list and every failure"},
 {"property": "C14", "status": "partial", "theorems": ["strcpy_s_correct_partial", "strncpy_s_correct", "strcat_s_correct_partial", "strcat_s_unterminated", "copies_null", "sprintf_s_correct", "mallocAndStrcpy_s_correct", "copies_size_zero_refuted"], "note": "proved for every positive stated size; with a stated size of 0 strcpy_s/strcat_s write one byte (refuted)"},
 {"property": "C140", "status": "partial", "theorems": ["win_sends_partial", "win_invalid", "win_large_refuted"], "note": "proved for contents of less than 4 GB; false beyond: the content is cut to its length modulo 2^32 and the call succeeds"},
 {"property": "C141", "status": "partial", "theorems": ["win_response_partial", "win_body_cut", "win_short_read_refuted", "win_headers_dropped_refuted", "win_reason_refuted"], "note": "proved for every response and chunking when reads give what was announced; false: a short read leaves unwritten bytes in the body, response headers that cannot be had are left out with HTTPAPI_OK, a colon in the reason makes a header"},
 {"property": "C142", "status": "partial", "theorems": ["win_memory_partial", "win_defined", "win_leak_refuted"], "note": "every path gives back blocks and handles but one: a response header that cannot be added is lost"},
 {"property": "C143", "status": "partial", "theorems": ["win_session", "win_init_result", "win_connection_partial", "win_connection_refuted", "win_close_late_refuted"], "note": "the session is proved for all histories; false: when the host name cannot be converted or copied a handle with an unwritten connection is given out, and a connection closed after the last Deinit is kept"},
 {"property": "C144", "status": "proved", "theorems": ["win_timeout", "win_sends_partial"], "note": "every value; the message sent carries the timeout of the handle"},
 {"property": "C145", "status": "proved", "theorems": ["ce_certificate_accepted", "ce_certificates_freed", "ce_certificate_options", "ce_expired_certificate_refuted", "ce_signed_certificate_refuted"], "note": "exact for every store content; the two refutations show what a user may wrongly expect of the check"},
 {"property": "C146", "status": "proved", "theorems": ["ce_requests_secure", "ce_last_request_secure", "ce_sockets_closed"], "note": "all histories; also for the trace of a last request that runs into undefined behaviour"},
 {"property": "C147", "status": "partial", "theorems": ["ce_try_again_partial", "ce_unresolved_refuted", "ce_unsecured_refuted"], "note": "true when connect or socket fails; false when the name is not resolved (the result is an uninitialised variable and the handle is dead for ever) and when the socket cannot be made secure"},
 {"property": "C148", "status": "partial", "theorems": ["ce_connects", "ce_reply_read", "ce_request_sent_partial", "ce_numeric_host_refuted", "ce_never_an_address"], "note": "proved for hosts that begin with a letter and sends that take all or fail; every host that begins with three dotted numbers overruns a local array; the limits of the reading code are those of C105-C110"},
 {"property": "C149", "status": "proved", "theorems": ["ce_init_balanced", "ce_handle_created", "ce_handle_is_new", "ce_options_refused"], "note": "all answers, names and values"},
 {"property": "C15", "status": "proved", "theorems": ["unsignedIntToString_correct", "size_tToString_correct", "decimal_exists_unique", "decimal_64bit_length"], "note": ""},
 {"property": "C150", "status": "proved", "theorems": ["option_passed", "option_unknown_refused", "option_null"], "note": "stacks of any depth, every option name and value"},
 {"property": "C151", "status": "partial", "theorems": ["trusted_certs_openssl", "trusted_certs_openssl_taken", "trusted_certs_wolfssl", "trusted_certs_schannel_refused", "trusted_certs_history", "trusted_bundle_refuted"], "note": "the first certificate of each call that returned 0, after every history; refuted for bundles: an OpenSSL io trusts only the first certificate of a text and still returns 0; Schannel ios have no such option; for wolfSSL what the library took is trusted"},
 {"property": "C152", "status": "partial", "theorems": ["options_bios_freed", "options_certs_freed_partial", "options_cert_leak_refuted"], "note": "BIOs always; certificates when the call fails; refuted when it succeeds: the reference of the object read is never given back"},
 {"property": "C153", "status": "proved", "theorems": ["normalize_spec", "normalize_same", "normalize_idempotent", "tokens_normal"], "note": "every string, every answer of malloc"},
 {"property": "C154", "status": "proved", "theorems": ["types_spec", "types_unique", "spelling_does_not_matter"], "note": "every history"},
 {"property": "C155", "status": "proved", "theorems": ["umock_spec", "deinit_frees"], "note": "every adaptive careful test"},
 {"property": "C156", "status": "partial", "theorems": ["both_empty", "in_order", "equal_strings_partial", "equal_strings_refuted"], "note": "both strings empty exactly when the expected calls were made in order; equal strings without brackets in names and arguments mean the expected calls up to order; refuted in general: expected f then g, called g then f, leaves both strings equal to [g()]"},
 {"property": "C157", "status": "partial", "theorems": ["init_partial", "init_knows_c_types", "init_failed_stays", "init_retry_refuted"], "note": "success and the types of C; refuted for retrying: after one failure for want of memory the types stay initialised, so every later init fails and deinit does nothing"},
 {"property": "C158", "status": "proved", "theorems": ["stringify_buffer_spec"], "note": ""},
 {"property": "C159", "status": "proved", "theorems": ["args_text_spec"], "note": ""},
 {"property": "C16", "status": "proved", "theorems": ["buffers_refine_sequences", "buffers_refine_sequences_no_failure", "buffers_other_handles_untouched"], "note": ""},
 {"property": "C160", "status": "partial", "theorems": ["mocks_follow_test_partial", "story_careful", "story_played", "hook_not_called_refuted", "validate_buffer_null_refuted"], "note": "proved with memory and with pointers that can be read: a simulation by a small reading of the test; refuted: a mock without a result whose call was expected never calls its hook; an expected buffer is compared with what a NULL argument points to"},
 {"property": "C161", "status": "partial", "theorems": ["mocks_follow_test_partial", "modifier_without_call_refuted", "expectation_without_memory_refuted"], "note": "proved with memory; refuted: IgnoreAllArguments with nothing expected dereferences NULL, unlike the others; when recording the expectation failed for want of memory nothing is reported and its modifiers change the one before it"},
 {"property": "C162", "status": "partial", "theorems": ["mocks_follow_test_partial", "mock_frees_unwritten_return_refuted", "deinit_forgets_copies_refuted", "mock_without_memory_refuted"], "note": "call data in memory are exactly those of known calls, copies given back at reset; refuted: flags of an actual call's data are never written, so an unwritten return value may be freed; deinit without reset never gives copies back; no memory for call data is a NULL dereference"},
 {"property": "C163", "status": "partial", "theorems": ["run_tests_partial", "run_tests_case", "cleanup_assertion_refuted", "suite_cleanup_assertion_refuted", "second_run_refuted"], "note": "proved for the first run of a suite when the suite cleanup does not fail an assertion; an assertion in the suite cleanup jumps back into a finished frame (undefined), and a suite run twice keeps the failures of the first run"},
 {"property": "C164", "status": "partial", "theorems": ["green_partial", "cleanup_assertion_refuted"], "note": "tests, initialisers and the suite cleanup; an assertion that fails in the cleanup of a test is not counted (refuted)"},
 {"property": "C165", "status": "partial", "theorems": ["int_compare_spec", "char_ptr_compare_partial", "char_ptr_compare_refuted", "shown_string_partial", "shown_string_refuted"], "note": "a NULL right-hand string is handed to strcmp; with the sprintf fallback of the Microsoft compiler and the bundled snprintf, long strings overrun (refuted)"},
 {"property": "C166", "status": "partial", "theorems": ["integer_text_partial", "type_ranges", "integer_text_case", "integer_texts_differ_partial", "size_text_refuted", "integer_equal_spec", "integer_copy_spec", "integer_null_arguments"], "note": "a size_t from 2^32 on is printed modulo 2^32 (refuted)"},
 {"property": "C167", "status": "partial", "theorems": ["real_text_partial", "special_texts", "real_text_case", "real_text_refuted", "real_equal_spec", "nan_copy_refuted"], "note": "numbers below 10^23; 2^80 overruns the buffer, long double is printed as double, a NaN does not equal its copy (all refuted)"},
 {"property": "C168", "status": "partial", "theorems": ["string_text_partial", "string_text_refuted", "string_texts_refuted", "string_copy_partial", "string_equal_partial", "string_copy_case"], "note": "a NULL char* is dereferenced; quotes are not escaped so two argument lists may have one text (refuted)"},
 {"property": "C169", "status": "partial", "theorems": ["any_order_partial", "any_order_green_partial", "nice_partial", "any_order_case", "wildcard_refuted", "exactly_twice_refuted", "at_least_refuted"], "note": "expectations that ask for at least one call and are not marked exact; the permutation for calls without ignored arguments (with them, calls that could all be matched may be reported: refuted); exact expectations block later ones for the same call, and at-least behaves as exactly under the strict comparer (refuted)"},
 {"property": "C17", "status": "partial", "theorems": ["buffers_failure_changes_nothing_partial", "buffers_failed_append_frees_refuted", "buffers_enlarge_to_zero_refuted"], "note": "holds unless the requested total is a multiple of 2^64: then glibc's realloc(p,0) frees the storage (refuted)"},
 {"property": "C170", "status": "partial", "theorems": ["in_order_partial", "in_order_green_partial", "in_order_case", "never_invoked_refuted"], "note": "expectations that ask for at least one call; one that asks for none stops the comparer (refuted)"},
 {"property": "C171", "status": "partial", "theorems": ["reset_partial", "ordered_reset_refuted", "reset_actual_refuted"], "note": "the unordered and nice comparers; the ordered comparer keeps its place, and expectations met before ResetActualCalls stay used up (refuted)"},
 {"property": "C172", "status": "partial", "theorems": ["enum_text_partial", "enum_read_spec", "enum_round_trip_spec", "enum_read_back_spec", "enum_null_arguments", "enum_case", "negative_enum_refuted"], "note": "proved where enumerations are unsigned and for values that are not negative; where they are int, a negative value reads before the table (refuted)"},
 {"property": "C173", "status": "partial", "theorems": ["validations_spec", "validate_buffer_partial", "validate_null_argument", "validate_no_memory", "validate_case", "conflict_case", "empty_validation_refused", "nested_validation_refuted", "validation_without_memory_refuted"], "note": "for validations where the one that begins last also ends last and with memory for the copies; nested ones overflow the mask, a validation without memory is dereferenced (refuted)"},
 {"property": "C174", "status": "partial", "theorems": ["copy_out_spec", "copy_out_case", "copy_out_too_long_refuted", "copy_out_without_memory_refuted"], "note": "for buffers that fit the memory of the caller and had memory for their copies; the others are not caught (refuted)"},
 {"property": "C175", "status": "proved", "theorems": ["own_stims_in_order", "tick_too_large", "time_before_call", "stims_case"], "note": ""},
 {"property": "C176", "status": "partial", "theorems": ["mock_strings_equal_partial", "mock_string_set", "mock_string_null", "mock_string_case", "mock_string_refuted"], "note": "with memory; NULL and the text NULL print the same, a NULL argument has no place for copied-out bytes, and no memory is undefined behaviour (refuted)"},
 {"property": "C177", "status": "partial", "theorems": ["stims_in_order_partial", "foreign_stims_refuted", "untimed_call_refuted"], "note": "for a single mock and stimuli all given with STIM_CALL_AT; the players are shared between mocks, a mock that ends takes the others' along, and a call without a time is made at tick 0 or not at all (refuted)"},
 {"property": "C178", "status": "proved", "theorems": ["c11_create_all_or_nothing", "c11_join_releases", "win_join_releases"], "note": "the part of C113 true of the code"},
 {"property": "C179", "status": "proved", "theorems": ["sch_send_chunks"], "note": "the part of C119 true of the code"},
 {"property": "C18", "status": "partial", "theorems": ["buffers_sizes_add_partial", "buffers_enlarge_wraps_refuted", "buffers_enlarge_to_zero_refuted"], "note": "proved while the sum stays below 2^64; false of the code beyond"},
 {"property": "C180", "status": "proved", "theorems": ["sm_received"], "note": "the part of C124 true of the code"},
 {"property": "C181", "status": "proved", "theorems": ["sw_received", "sw_receive_error"], "note": "the part of C129 true of the code"},
 {"property": "C182", "status": "proved", "theorems": ["tirtos_defined"], "note": "the part of C137 true of the code"},
 {"property": "C183", "status": "proved", "theorems": ["win_session", "win_init_result"], "note": "the part of C143 true of the code"},
 {"property": "C184", "status": "proved", "theorems": ["headers_stored_legal"], "note": "the part of C36 true of the code"},
 {"property": "C185", "status": "proved", "theorems": ["completions_accounted_for", "dowork_settles"], "note": "the part of C58 true of the code"},
 {"property": "C186", "status": "proved", "theorems": ["uniqueid_shape", "uniqueid_too_small", "uniqueid_injective"], "note": "the part of C62 true of the code"},
 {"property": "C187", "status": "proved", "theorems": ["c11_lock_memory", "c11_condition_memory", "c11_results"], "note": "the part of C91 true of the code"},
 {"property": "C188", "status": "proved", "theorems": ["wolf_destroy_releases_everything"], "note": "the part of C104 true of the code"},
 {"property": "C189", "status": "proved", "theorems": ["lock_excludes", "lock_null", "lock_freed"], "note": "LockPort_Props; the part of C132 true of the code"},
 {"property": "C19", "status": "proved", "theorems": ["lists_refine_sequences", "lists_walk", "lists_handles_distinct", "lists_failure_changes_nothing", "lists_destroyed_nothing_left"], "note": ""},
 {"property": "C190", "status": "proved", "theorems": ["sch_create_clean", "sch_blocks_freed"], "note": "the part of C120 true of the code"},
 {"property": "C191", "status": "proved", "theorems": ["options_bios_freed"], "note": "the part of C152 true of the code"},
 {"property": "C192", "status": "partial", "theorems": ["array_life_partial", "array_life_case", "array_throw", "array_throw_refuted", "arrays_alike_refuted", "arrays_of_integers", "arrays_of_chars_partial", "arrays_of_chars_refuted"], "note": "with memory, for integers printed as numbers and for characters that are not 0; what follows a 0 in arrays of char or unsigned char is not compared, and a SetValue without memory leaves a value that is freed twice (both refuted)"},
 {"property": "C193", "status": "partial", "theorems": ["wide_partial", "wide_kept", "wide_refuted"], "note": "for texts other than NULL; NULL is taken for the text NULL and given back as it, and characters from 256 on print as others or end the text (refuted)"},
 {"property": "C194", "status": "partial", "theorems": ["pointer_arguments_partial", "pointer_arguments_case", "pointer_arguments_refuted"], "note": "with memory and sizes set for arguments that are not NULL and have as many elements; for NULL a pointer never set is read (refuted)"},
 {"property": "C195", "status": "partial", "theorems": ["singleton_partial", "singleton_last", "singleton_case", "singleton_refuted"], "note": "when mocks of a class live one at a time; of two, the end of either takes the singleton away (refuted)"},
 {"property": "C196", "status": "proved", "theorems": ["safe_singleton"], "note": "each interlocked exchange is one step"},
 {"property": "C197", "status": "proved", "theorems": ["vectors_refine_arrays_no_failure", "vectors_other_handles_untouched", "vectors_push_failure_atomic"], "note": "the part of C23 true of the code; the arrays of the specification have positive element sizes and sizes below 2^64"},
 {"property": "C198", "status": "proved", "theorems": ["request_ends"], "note": "HttpApiMbed_Safety; the part of C107 true of the code"},
 {"property": "C199", "status": "proved", "theorems": ["reply_read", "replies_in_order"], "note": "the part of C106 true of the code"},
 {"property": "C20", "status": "proved", "theorems": ["list_find_first"], "note": ""},
 {"property": "C200", "status": "proved", "theorems": ["win_defined"], "note": "the part of C142 true of the code"},
 {"property": "C201", "status": "proved", "theorems": ["sch_close_at_most_once"], "note": "the part of C118 true of the code"},
 {"property": "C202", "status": "proved", "theorems": ["socket_calls_defined"], "note": "the part of C60 true of the code; the kernel takes at most 2^31 bytes"},
 {"property": "C203", "status": "proved", "theorems": ["reported_open_completes_exactly_once"], "note": "the part of C61 true of the code"},
 {"property": "C204", "status": "proved", "theorems": ["usha_threads_different_files"], "note": "the part of C45 true of the code"},
 {"property": "C205", "status": "proved", "theorems": ["threads_defined"], "note": "the part of C64 true of the code"},
 {"property": "C206", "status": "proved", "theorems": ["trusted_certs_openssl", "trusted_certs_wolfssl"], "note": "the part of C151 true of the code"},
 {"property": "C207", "status": "proved", "theorems": ["tokenizer_tokens", "listed_unique", "tokenizer_tokens_case"], "note": ""},
 {"property": "C208", "status": "proved", "theorems": ["every_kind_of_expectation", "every_kind_unique", "every_kind_case"], "note": "unordered and nice comparers"},
 {"property": "C209", "status": "proved", "theorems": ["every_kind_of_expectation_in_order", "every_kind_in_order_unique", "every_kind_in_order_case"], "note": ""},
 {"property": "C21", "status": "proved", "theorems": ["dlists_refine_sequences", "dlists_links_inverse", "dlists_untouched"], "note": ""},
 {"property": "C210", "status": "partial", "theorems": ["mutex_excludes_partial", "mutex_abandoned_refuted", "micromock_mutex_opposite", "mutex_case"], "note": "false of a thread that ends with the mutex: the next is told that acquire failed, and has it"},
 {"property": "C211", "status": "partial", "theorems": ["leaks_reported_by_the_last_partial", "init_waits_only_for_many", "leaks_case", "leaks_after_kill_refuted"], "note": "false when a process is killed between the two macros"},
 {"property": "C212", "status": "proved", "theorems": ["sch_callbacks_own", "sch_histories", "sch_callbacks_case"], "note": ""},
 {"property": "C213", "status": "proved", "theorems": ["sm_callbacks_own", "sm_histories", "sm_callbacks_case"], "note": ""},
 {"property": "C22", "status": "proved", "theorems": ["dlists_append"], "note": ""},
 {"property": "C23", "status": "partial", "theorems": ["vectors_refine_arrays_partial", "vectors_refine_arrays_no_failure", "vectors_other_handles_untouched", "vectors_push_failure_atomic", "vectors_erase_shrink_refuted", "vectors_zero_size_refuted"], "note": "Full refinement for positive element sizes except when the realloc that shrinks the storage in VECTOR_erase fails: then the code loses the elements (refuted for every vector). Element size 0 is accepted by VECTOR_create but the second push_back leaves a dangling pointer (refuted)."},
 {"property": "C24", "status": "partial", "theorems": ["vectors_access_partial", "vectors_element_at_size_refuted", "vectors_back_empty_refuted"], "note": "Holds for every index except the one equal to the size, where the code returns a pointer past the storage, and except VECTOR_back of an empty vector, which returns a wild address: both refuted for every vector."},
 {"property": "C25", "status": "partial", "theorems": ["vectors_erase_in_range_partial", "vectors_erase_out_of_range_refuted"], "note": "Proved for ranges inside the vector; a range past the end makes memmove run out of bounds (refuted for every such range)."},
 {"property": "C26", "status": "proved", "theorems": ["maps_refine_finite_maps", "maps_refine_finite_maps_no_failure", "maps_other_handles_untouched", "spec_insert_lookup", "spec_update_lookup", "spec_delete_lookup"], "note": "preconditions: live handles, valid C strings, and an update not passing the map's own string for that key (C69)"},
 {"property": "C27", "status": "proved", "theorems": ["maps_keys_unique"], "note": ""},
 {"property": "C28", "status": "proved", "theorems": ["maps_failure_changes_nothing"], "note": "content only: a failed insertion into an empty map may drop its filter (see C29)"},
 {"property": "C29", "status": "partial", "theorems": ["maps_filter_lost_by_delete_refuted", "maps_filter_lost_by_clone_refuted", "maps_filter_kept_partial", "maps_filter_respected_partial"], "note": "false of the code: deleting the last pair, or cloning an empty map, drops the filter (refuted for every filter); proved that a filter in force is respected and is kept by every call that leaves the map non-empty"},
 {"property": "C30", "status": "proved", "theorems": ["maps_clone_equal_independent", "maps_clone_filter"], "note": ""},
 {"property": "C31", "status": "proved", "theorems": ["maps_tojson", "json_pairs_read_back", "maps_tojson_no_leak"], "note": ""},
 {"property": "C32", "status": "proved", "theorems": ["refcount_no_use_after_free", "refcount_alive_while_referenced", "refcount_freed_after_last"], "note": "any number of threads, sequentially consistent atomics"},
 {"property": "C33", "status": "partial", "theorems": ["refcount_overflow_refuted"], "note": "false of the code: 2^32 clones wrap the counter and the object is freed while referenced"},
 {"property": "C34", "status": "proved", "theorems": ["constbuffers_refine_sequences", "constbuffers_refine_sequences_no_failure", "constbuffer_content_immutable", "constbuffer_create_atomic"], "note": ""},
 {"property": "C35", "status": "proved", "theorems": ["constmap_snapshot", "constmap_clonewriteable", "constmap_null_arguments"], "note": ""},
 {"property": "C36", "status": "partial", "theorems": ["headers_legal_partial", "headers_empty_name_refuted"], "note": "the non-empty clause is false of the code: the empty name is accepted; the rest is proved for every history"},
 {"property": "C37", "status": "proved", "theorems": ["headers_refine_lists", "headers_refine_lists_no_failure", "spec_put_effect", "merge_codes_exact"], "note": ""},
 {"property": "C38", "status": "partial", "theorems": ["headers_injection_refuted"], "note": "false of the code: values containing CR LF are accepted and emitted"},
 {"property": "C39", "status": "proved", "theorems": ["gballoc_accounts_exactly", "gballoc_current_and_maximum"], "note": "any sequence of calls and of answers of the allocator and lock; total below 2^64"},
 {"property": "C40", "status": "partial", "theorems": ["gballoc_reinit_refuted"], "note": "REFUTED: gballoc_init resets the total but not the list, so freeing an older block makes the total 2^64-n"},
 {"property": "C41", "status": "partial", "theorems": ["gballoc_threads_partial", "gballoc_concurrent_free_refuted", "gballoc_lost_block_refuted"], "note": "REFUTED: gballoc_free reads head outside the lock; proved: interleavings in which head did not change meanwhile are equivalent to the serial run"},
 {"property": "C42", "status": "proved", "theorems": ["usha_digest", "usha_history"], "note": "USHAReset, any sequence of USHAInput, USHAResult for all five selectors; message below the algorithm's limit"},
 {"property": "C43", "status": "proved", "theorems": ["usha_final_bits"], "note": "1..7 final bits after any pieces"},
 {"property": "C44", "status": "proved", "theorems": ["usha_history", "usha_input_after_result"], "note": "every history of calls on one context agrees with a state machine over bit strings, NULL arguments included"},
 {"property": "C45", "status": "partial", "theorems": ["usha_threads_partial", "usha_threads_different_files", "usha_threads_refuted"], "note": "REFUTED: the files' static addTemp is shared; proved for schedules in which no thread runs in a file while another is inside its AddLength, and for every schedule of threads using different files"},
 {"property": "C46", "status": "proved", "theorems": ["hmac_history", "hmac_rfc2104", "hmac_correct", "usha_sizes"], "note": "key length below 2^31; histories of hmacReset/Input/FinalBits/Result"},
 {"property": "C47", "status": "partial", "theorems": ["hmacsha256_partial", "hmacsha256_invalid", "hmacsha256_nonempty_refuted", "hmacsha256_long_key_ignored", "hmacsha256_long_payload_cut", "compute_hash_general"], "note": "proved for keys and payloads below 2^31 bytes and an empty buffer; other cases: exactly what the code does, and a counterexample for a non-empty buffer"},
 {"property": "C48", "status": "partial", "theorems": ["sas_token_partial", "sas_token_general", "sas_token_null_arguments", "sas_token_undecodable_key", "sas_token_empty_key", "sas_token_bad_key_refuted"], "note": "proved for every key that is the base64 text of some bytes (and, in sas_token_general, for every key text the decoder decodes), with key and scope below 2^31 bytes; for malformed key texts the base64 decoder writes past its buffer (sas_token_bad_key_refuted)"},
 {"property": "C49", "status": "proved", "theorems": ["sas_fields_recovered", "sas_token_injective"], "note": "tokens with equal text have equal scope, key name, expiry and HMAC; that different keys give different HMACs is cryptographic and not claimed"},
 {"property": "C50", "status": "proved", "theorems": ["execute_always_returns", "every_call_bounded"], "note": "Adversarial layer below (any list of answers), any allocation failures, any reached state; 9 rounds of the loop suffice and more fuel changes nothing."},
 {"property": "C51", "status": "proved", "theorems": ["calls_below_balanced", "destroy_leaves_nothing"], "note": "The calls below are checked against a small state machine (Down/Up None/Up conn)."},
 {"property": "C52", "status": "partial", "theorems": ["result_is_the_last_requests_partial", "response_is_stored", "first_try_response_is_exact", "response_headers_of_last_request_refuted"], "note": "OK iff the last request succeeded, status and body are its own; for the headers the literal claim is false: those of a failed attempt stay in the response (refuted by a concrete history). Proved instead: the headers are the caller's plus those of every request made by the call."},
 {"property": "C53", "status": "partial", "theorems": ["options_are_replayed_partial", "setoption_before_connection", "refused_option_is_replayed_refuted"], "note": "Proved for the settings in force, which include a value refused by the live connection; the literal claim (only accepted values) is false, refuted by a concrete history."},
 {"property": "C54", "status": "partial", "theorems": ["request_headers_sent_partial", "full_headers_meaning", "header_names_distinct", "one_host_header_refuted"], "note": "Exactly one header spelled Host and one spelled Content-Length; HTTP header names are case-insensitive and a caller's 'host' is sent too, refuted by a concrete history."},
 {"property": "C55", "status": "proved", "theorems": ["sas_request_is_plain_request", "sas_request_refreshes_authorization", "sas_create", "sas_create_null", "sas_destroy"], "note": "The key text is the base64 text of some bytes (other texts: see C48), times in -3600..2^53-3600 (exact in double arithmetic), key below 2^31 bytes."},
 {"property": "C56", "status": "proved", "theorems": ["xio_faithful", "xio_usable", "xio_create_succeeds", "xio_destroyed_once"], "note": "The interface description is constant while the handle lives."},
 {"property": "C57", "status": "partial", "theorems": ["stream_preserved_partial", "stream_preserved_refuted", "stream_skips_message_refuted", "stream_refused_part_refuted"], "note": "Holds while every kernel send made by socketio_dowork takes all it is offered and no send is refused after a partial one. Refuted otherwise: a partial send in dowork duplicates bytes (size not decreased, :483), a failed one drops the message and still sends the next, a partial send followed by an allocation failure leaves the bytes of a refused message in the stream. Callbacks are assumed not to re-enter the io."},
 {"property": "C58", "status": "partial", "theorems": ["messages_accounted_for_partial", "dowork_settles", "completion_on_failure_refuted", "completion_on_close_refuted"], "note": "At most once, only with OK and only after all its bytes, in order of acceptance: proved for every history. That a failed or closed io completes its messages is refuted."},
 {"property": "C59", "status": "partial", "theorems": ["close_discards_partial", "close_discards_refuted"], "note": "Refuted: socketio_close keeps the queue and the next connection sends it. Proved when a dowork came to its end after the last accepted send."},
 {"property": "C60", "status": "partial", "theorems": ["socket_state_machine_partial", "socket_calls_defined", "close_when_closed_refuted"], "note": "The whole machine, except that closing a closed io returns 0 (:357), refuted."},
 {"property": "C61", "status": "partial", "theorems": ["open_complete_at_most_once_per_open_partial", "reported_open_completes_exactly_once", "socketio_is_polite", "failed_open_cannot_be_retried_refuted", "open_complete_twice_refuted", "open_complete_twice_after_failed_close_refuted", "closed_open_never_completes_refuted", "open_never_completes_after_bio_failure_refuted", "failed_open_completed_refuted", "reopen_always_fails_refuted", "last_flight_not_sent_refuted"], "note": "At most one open-complete per open for every OpenSSL, every re-entrant user and every underlying io that reports a failed open by its result, does not fail to close, and does not act and return 0 in a send without callback; socketio is such an io. Exactly one once the underlying io reports, if the user does not close and memory for incoming bytes suffices. FALSE in the code: reopening after a failed open (it is refused for ever), reopening after success, completion after close or BIO failure, and one callback when the underlying io is not polite."},
 {"property": "C62", "status": "partial", "theorems": ["uniqueid_text_partial", "uniqueid_too_small", "uniqueid_injective", "uniqueid_reads_back_refuted"], "note": "proved with the digits of each octet read low digit first; in the usual order the text does not read back as the generated octets (refuted for all octets but those of two equal digits)"},
 {"property": "C63", "status": "proved", "theorems": ["condition_wait_deadline", "condition_wait_unlimited", "condition_wait_null", "condition_clock"], "note": "seconds below 2^63-2147485, so that the addition does not overflow"},
 {"property": "C64", "status": "partial", "theorems": ["sleep_request", "join_delivers_partial", "threads_defined", "joined_is_freed", "failed_join_refuted"], "note": "sleep and the delivered values: proved for every history; the memory is safe in every history whose joins do not fail; after a failing pthread_join the instance is freed under a thread that may still have to read it (refuted)"},
 {"property": "C65", "status": "proved", "theorems": ["init_deinit_counted", "init_result"], "note": "every history, any answers of curl_global_init"},
 {"property": "C66", "status": "partial", "theorems": ["request_answered_partial", "one_piece_safe", "execute_request", "growth_failure_refuted"], "note": "proved when no reallocation fails after a first piece was stored; in that case the freed block is used again (growth_failure_refuted: refuted)"},
 {"property": "C67", "status": "partial", "theorems": ["header_line_fields_partial", "header_line_one", "header_line_none", "put_is_add", "header_line_length_refuted"], "note": "proved for lines followed by a 0; the length is ignored, so without a 0 (which libcurl does not promise) the bytes behind the line are parsed too: refuted"},
 {"property": "C68", "status": "proved", "theorems": ["tickcounter_monotone", "tickcounter_exact", "tickcounter_errors", "tickcounter_clock_set_back"], "note": "double arithmetic modelled by exact rounding to 53 bits; exact below 2^53 ms, monotone below 2^64 ms; tickcounter_clock_set_back shows why the condition on the clock is needed (time() is the wall clock)"},
 {"property": "C69", "status": "partial", "theorems": ["maps_update_own_value_refuted"], "note": "false of the code for every key and value: use after realloc"},
 {"property": "C70", "status": "partial", "theorems": ["headers_replace_own_value_refuted"], "note": "false of the code after every history: use after realloc"},
 {"property": "C71", "status": "partial", "theorems": ["gballoc_realloc_zero_refuted"], "note": "REFUTED for glibc realloc(p,0): counted for ever, and a later free is a double free"},
 {"property": "C72", "status": "partial", "theorems": ["usha_too_long_refuted"], "note": "REFUTED: the Input that overflows reports success, and later calls report shaNull (1), not shaInputTooLong (2)"},
 {"property": "C73", "status": "proved", "theorems": ["execute_touches_only_its_objects"], "note": ""},
 {"property": "C74", "status": "proved", "theorems": ["socket_descriptors"], "note": ""},
 {"property": "C75", "status": "proved", "theorems": ["socket_reports"], "note": ""},
 {"property": "C76", "status": "partial", "theorems": ["dowork_returns_partial", "dowork_returns_refuted"], "note": "Refuted: with one byte taken at a time dowork sends forever, as the size of the entry never decreases. Proved while the kernel takes all or refuses."},
 {"property": "C77", "status": "proved", "theorems": ["open_succeeds_at_most_once_in_a_life"], "note": "for polite underlying ios (as C61)"},
 {"property": "C78", "status": "proved", "theorems": ["close_complete_at_most_once_per_close", "send_callback_passed_on_at_most_once_per_send", "send_hands_everything_over"], "note": "every environment, polite or not; the last theorem for outgoing data below 2^31 bytes"},
 {"property": "C79", "status": "proved", "theorems": ["tls_bytes_handed_over_in_order", "plain_text_passed_on_in_order"], "note": "every environment; if every open passes a bytes callback. Bytes may be passed on after close when close is called from the bytes callback: bytes_after_close_refuted"},
 {"property": "C80", "status": "proved", "theorems": ["no_data_before_the_handshake"], "note": "every environment"},
 {"property": "C81", "status": "partial", "theorems": ["created_holds_everything", "failed_create_releases_partial", "failed_create_leaks_underlying_refuted"], "note": "FALSE in the code: the underlying io is leaked when BIO_set_mem_eof_return or SSL_new fails; everything else is released"},
 {"property": "C82", "status": "partial", "theorems": ["uniqueid_variant_partial", "uniqueid_version_refuted"], "note": "the variant is right; the version digit is random (the '4' goes to the wrong place)"},
 {"property": "C83", "status": "proved", "theorems": ["no_lost_wakeup", "no_deadlock", "lock_excludes"], "note": "the pthread functions are the POSIX machine in Condition_Sync.v; the calls are those the modelled functions make"},
 {"property": "C84", "status": "proved", "theorems": ["lock_memory", "condition_memory"], "note": ""},
 {"property": "C85", "status": "partial", "theorems": ["sleep_lasts_partial", "sleep_lasts_refuted"], "note": "true without signals; a signal handler ends the sleep early (nanosleep's EINTR is ignored)"},
 {"property": "C86", "status": "partial", "theorems": ["connection_owned_partial", "broken_handle_refuted"], "note": "proved but for a failing allocation of the host name, where a handle with indeterminate fields is returned (refuted)"},
 {"property": "C87", "status": "partial", "theorems": ["execute_request", "history_as_asked_partial", "options_as_asked", "get_with_content_refuted"], "note": "proved for every history except the method of GET requests with content, which go out as POST (refuted); libcurl modelled by its documentation"},
 {"property": "C88", "status": "partial", "theorems": ["execute_request", "request_answered_partial", "lost_body_refuted", "stale_content_refuted"], "note": "the exact table of results is proved; refuted: a body that could not be handed over is reported as OK, and an empty body leaves the old content in the buffer"},
 {"property": "C89", "status": "proved", "theorems": ["option_set", "cloned_option"], "note": "for values of the documented types"},
 {"property": "C90", "status": "partial", "theorems": ["c11_wait_deadline_partial", "c11_wait_unlimited", "c11_wait_null", "c11_sleep", "c11_wait_too_short_refuted"], "note": "the deadline is computed from whole seconds: the wait is too short by the part of the second already gone (refuted for every such clock reading); never late, less than a second early"},
 {"property": "C91", "status": "partial", "theorems": ["c11_lock_memory", "c11_condition_memory", "c11_results", "c11_condition_uninitialised_refuted"], "note": "memory proved; a condition that could not be initialised is returned all the same (refuted)"},
 {"property": "C92", "status": "proved", "theorems": ["uniqueid_linux_text", "uniqueid_linux_too_small"], "note": "uuid_unparse by its documentation"},
 {"property": "C93", "status": "proved", "theorems": ["reentrancy_safe", "reentrancy_no_leak", "destroy_in_callback_refuted", "dowork_in_completion_refuted"], "note": "safety under the rules, for every nesting; and for each rule, breaking it in any reachable state leads to undefined behaviour (dowork: a twice completed and twice freed entry)"},
 {"property": "C94", "status": "partial", "theorems": ["reentrant_close_closes", "closed_stays_closed_partial", "close_in_completion_refuted"], "note": "refuted when close is called within the completion callback (or io error) of a message sent by dowork while more are pending: the loop goes on, drops a message and leaves the io in error, not closed; proved otherwise"},
 {"property": "C95", "status": "partial", "theorems": ["reentrant_messages_partial"], "note": "same accounting (explains) as C58 for the non re-entrant io, with the same exceptions: a message the kernel refuses is dropped without a callback, and bytes are repeated after a partial send of a pending message (completion_on_failure_refuted and the other refutations of C56-C58)"},
 {"property": "C96", "status": "proved", "theorems": ["reentrant_descriptors"], "note": "for every run, even one that breaks the rules"},
 {"property": "C97", "status": "partial", "theorems": ["buffer_read_early_partial", "buffer_read_late_refuted"], "note": "refuted when sent bytes are logged: the buffer is read again after the completion callback; proved otherwise"},
 {"property": "C98", "status": "proved", "theorems": ["wolf_bytes_reach_wolfssl", "wolf_records_handed_over", "wolf_plain_text_passed_on"], "note": "wolfSSL an arbitrary machine, environment with re-entrant calls; plain text: for opens given a bytes callback"},
 {"property": "C99", "status": "proved", "theorems": ["wolf_handshake_first"], "note": ""}
]}
