c("C01","proved","base64_round_trip")
c("C02","proved","base64_encode_rfc4648 base64_encode_bytes_rfc4648 base64_length")
c("C03","partial","base64_decoder_safe_refuted base64_decoder_unpadded_overflows base64_decoder_defined_refuted base64_decoder_in_bounds_partial","false of the code: texts whose length is not a multiple of 4 overflow the block; proved in bounds otherwise")
c("C04","proved","base64_decode_canonical base64_text_is_canonical base64_injective")
c("C05","proved","url_encode_string_correct url_encode_correct url_encode_injective url_encode_plain_unchanged")
c("C06","proved","url_encode_string_correct url_encode_correct")
c("C07","proved","strings_refine_texts strings_refine_texts_no_failure strings_other_handles_untouched")
c("C08","proved","strings_failure_changes_nothing strings_defined_under_alloc_failure")
c("C09","proved","new_JSON_reads_back json_literal_reads_back")
c("C10","partial","concat_self_undefined_refuted concat_self_loses_terminator_refuted","false of the code: overlapping memcpy for every text; an ascending copy loses the terminator")
c("C11","proved","compare_orders_texts compare_total_order compare_null")
c("C12","partial","tokenizer_fields_partial tokenizer_fields_refuted tokenizer_first_listed_wins_refuted tokenizer_tokens listed_unique tokenizer_tokens_case","proved when at most one delimiter character occurs in the text; false of the code with several, for which the tokens it does give are proved (C207)")
c("C13","proved","tokenizer_step tokenizer_bounded tokenizer_end_is_final tokenizer_null_arguments")
c("C14","partial","strcpy_s_correct_partial strncpy_s_correct strcat_s_correct_partial strcat_s_unterminated copies_null sprintf_s_correct mallocAndStrcpy_s_correct copies_size_zero_refuted","proved for every positive stated size; with a stated size of 0 strcpy_s/strcat_s write one byte (refuted)")
c("C15","proved","unsignedIntToString_correct size_tToString_correct decimal_exists_unique decimal_64bit_length")
c("C16","proved","buffers_refine_sequences buffers_refine_sequences_no_failure buffers_other_handles_untouched")
c("C17","partial","buffers_failure_changes_nothing_partial buffers_failed_append_frees_refuted buffers_enlarge_to_zero_refuted","holds unless the requested total is a multiple of 2^64: then glibc's realloc(p,0) frees the storage (refuted)")
c("C18","partial","buffers_sizes_add_partial buffers_enlarge_wraps_refuted buffers_enlarge_to_zero_refuted","proved while the sum stays below 2^64; false of the code beyond")
c("C19","proved","lists_refine_sequences lists_walk lists_handles_distinct lists_failure_changes_nothing lists_destroyed_nothing_left")
c("C20","proved","list_find_first")
c("C21","proved","dlists_refine_sequences dlists_links_inverse dlists_untouched")
c("C22","proved","dlists_append")
c("C23","partial","vectors_refine_arrays_partial vectors_refine_arrays_no_failure vectors_other_handles_untouched vectors_push_failure_atomic vectors_erase_shrink_refuted vectors_zero_size_refuted","Full refinement for positive element sizes except when the realloc that shrinks the storage in VECTOR_erase fails: then the code loses the elements (refuted for every vector). Element size 0 is accepted by VECTOR_create but the second push_back leaves a dangling pointer (refuted).")
c("C24","partial","vectors_access_partial vectors_element_at_size_refuted vectors_back_empty_refuted","Holds for every index except the one equal to the size, where the code returns a pointer past the storage, and except VECTOR_back of an empty vector, which returns a wild address: both refuted for every vector.")
c("C25","partial","vectors_erase_in_range_partial vectors_erase_out_of_range_refuted","Proved for ranges inside the vector; a range past the end makes memmove run out of bounds (refuted for every such range).")
c("C26","proved","maps_refine_finite_maps maps_refine_finite_maps_no_failure maps_other_handles_untouched spec_insert_lookup spec_update_lookup spec_delete_lookup","preconditions: live handles, valid C strings, and an update not passing the map's own string for that key (C69)")
c("C27","proved","maps_keys_unique")
c("C28","proved","maps_failure_changes_nothing","content only: a failed insertion into an empty map may drop its filter (see C29)")
c("C29","partial","maps_filter_lost_by_delete_refuted maps_filter_lost_by_clone_refuted maps_filter_kept_partial maps_filter_respected_partial","false of the code: deleting the last pair, or cloning an empty map, drops the filter (refuted for every filter); proved that a filter in force is respected and is kept by every call that leaves the map non-empty")
c("C30","proved","maps_clone_equal_independent maps_clone_filter")
c("C31","proved","maps_tojson json_pairs_read_back maps_tojson_no_leak")
c("C69","partial","maps_update_own_value_refuted","false of the code for every key and value: use after realloc")
c("C32","proved","refcount_no_use_after_free refcount_alive_while_referenced refcount_freed_after_last","any number of threads, sequentially consistent atomics")
c("C33","partial","refcount_overflow_refuted","false of the code: 2^32 clones wrap the counter and the object is freed while referenced")
c("C34","proved","constbuffers_refine_sequences constbuffers_refine_sequences_no_failure constbuffer_content_immutable constbuffer_create_atomic")
c("C35","proved","constmap_snapshot constmap_clonewriteable constmap_null_arguments")
c("C36","partial","headers_legal_partial headers_empty_name_refuted","the non-empty clause is false of the code: the empty name is accepted; the rest is proved for every history")
c("C37","proved","headers_refine_lists headers_refine_lists_no_failure spec_put_effect merge_codes_exact")
c("C38","partial","headers_injection_refuted","false of the code: values containing CR LF are accepted and emitted")
c("C70","partial","headers_replace_own_value_refuted","false of the code after every history: use after realloc")
c("C39","proved","gballoc_accounts_exactly gballoc_current_and_maximum","any sequence of calls and of answers of the allocator and lock; total below 2^64")
c("C40","partial","gballoc_reinit_refuted","REFUTED: gballoc_init resets the total but not the list, so freeing an older block makes the total 2^64-n")
c("C41","partial","gballoc_threads_partial gballoc_concurrent_free_refuted gballoc_lost_block_refuted","REFUTED: gballoc_free reads head outside the lock; proved: interleavings in which head did not change meanwhile are equivalent to the serial run")
c("C71","partial","gballoc_realloc_zero_refuted","REFUTED for glibc realloc(p,0): counted for ever, and a later free is a double free")
c("C42","proved","usha_digest usha_history","USHAReset, any sequence of USHAInput, USHAResult for all five selectors; message below the algorithm's limit")
c("C43","proved","usha_final_bits","1..7 final bits after any pieces")
c("C44","proved","usha_history usha_input_after_result","every history of calls on one context agrees with a state machine over bit strings, NULL arguments included")
c("C46","proved","hmac_history hmac_rfc2104 hmac_correct usha_sizes","key length below 2^31; histories of hmacReset/Input/FinalBits/Result")
c("C47","partial","hmacsha256_partial hmacsha256_invalid hmacsha256_nonempty_refuted hmacsha256_long_key_ignored hmacsha256_long_payload_cut compute_hash_general","proved for keys and payloads below 2^31 bytes and an empty buffer; other cases: exactly what the code does, and a counterexample for a non-empty buffer")
c("C72","partial","usha_too_long_refuted","REFUTED: the Input that overflows reports success, and later calls report shaNull (1), not shaInputTooLong (2)")
c("C45","partial","usha_threads_partial usha_threads_different_files usha_threads_refuted","REFUTED: the files' static addTemp is shared; proved for schedules in which no thread runs in a file while another is inside its AddLength, and for every schedule of threads using different files")
c("C48","partial","sas_token_partial sas_token_general sas_token_null_arguments sas_token_undecodable_key sas_token_empty_key sas_token_bad_key_refuted","proved for every key that is the base64 text of some bytes (and, in sas_token_general, for every key text the decoder decodes), with key and scope below 2^31 bytes; for malformed key texts the base64 decoder writes past its buffer (sas_token_bad_key_refuted)")
c("C49","proved","sas_fields_recovered sas_token_injective","tokens with equal text have equal scope, key name, expiry and HMAC; that different keys give different HMACs is cryptographic and not claimed")
c("C50","proved","execute_always_returns every_call_bounded","Adversarial layer below (any list of answers), any allocation failures, any reached state; 9 rounds of the loop suffice and more fuel changes nothing.")
c("C51","proved","calls_below_balanced destroy_leaves_nothing","The calls below are checked against a small state machine (Down/Up None/Up conn).")
c("C52","partial","result_is_the_last_requests_partial response_is_stored first_try_response_is_exact response_headers_of_last_request_refuted","OK iff the last request succeeded, status and body are its own; for the headers the literal claim is false: those of a failed attempt stay in the response (refuted by a concrete history). Proved instead: the headers are the caller's plus those of every request made by the call.")
c("C53","partial","options_are_replayed_partial setoption_before_connection refused_option_is_replayed_refuted","Proved for the settings in force, which include a value refused by the live connection; the literal claim (only accepted values) is false, refuted by a concrete history.")
c("C54","partial","request_headers_sent_partial full_headers_meaning header_names_distinct one_host_header_refuted","Exactly one header spelled Host and one spelled Content-Length; HTTP header names are case-insensitive and a caller's 'host' is sent too, refuted by a concrete history.")
c("C73","proved","execute_touches_only_its_objects","")
c("C55","proved","sas_request_is_plain_request sas_request_refreshes_authorization sas_create sas_create_null sas_destroy","The key text is the base64 text of some bytes (other texts: see C48), times in -3600..2^53-3600 (exact in double arithmetic), key below 2^31 bytes.")
c("C56","proved","xio_faithful xio_usable xio_create_succeeds xio_destroyed_once","The interface description is constant while the handle lives.")
c("C57","partial","stream_preserved_partial stream_preserved_refuted stream_skips_message_refuted stream_refused_part_refuted","Holds while every kernel send made by socketio_dowork takes all it is offered and no send is refused after a partial one. Refuted otherwise: a partial send in dowork duplicates bytes (size not decreased, :483), a failed one drops the message and still sends the next, a partial send followed by an allocation failure leaves the bytes of a refused message in the stream. Callbacks are assumed not to re-enter the io.")
c("C58","partial","messages_accounted_for_partial dowork_settles completion_on_failure_refuted completion_on_close_refuted","At most once, only with OK and only after all its bytes, in order of acceptance: proved for every history. That a failed or closed io completes its messages is refuted.")
c("C59","partial","close_discards_partial close_discards_refuted","Refuted: socketio_close keeps the queue and the next connection sends it. Proved when a dowork came to its end after the last accepted send.")
c("C60","partial","socket_state_machine_partial socket_calls_defined close_when_closed_refuted","The whole machine, except that closing a closed io returns 0 (:357), refuted.")
c("C74","proved","socket_descriptors","")
c("C75","proved","socket_reports","")
c("C76","partial","dowork_returns_partial dowork_returns_refuted","Refuted: with one byte taken at a time dowork sends forever, as the size of the entry never decreases. Proved while the kernel takes all or refuses.")
c("C61","partial","open_complete_at_most_once_per_open_partial reported_open_completes_exactly_once socketio_is_polite failed_open_cannot_be_retried_refuted open_complete_twice_refuted open_complete_twice_after_failed_close_refuted closed_open_never_completes_refuted open_never_completes_after_bio_failure_refuted failed_open_completed_refuted reopen_always_fails_refuted last_flight_not_sent_refuted","At most one open-complete per open for every OpenSSL, every re-entrant user and every underlying io that reports a failed open by its result, does not fail to close, and does not act and return 0 in a send without callback; socketio is such an io. Exactly one once the underlying io reports, if the user does not close and memory for incoming bytes suffices. FALSE in the code: reopening after a failed open (it is refused for ever), reopening after success, completion after close or BIO failure, and one callback when the underlying io is not polite.")
c("C77","proved","open_succeeds_at_most_once_in_a_life","for polite underlying ios (as C61)")
c("C78","proved","close_complete_at_most_once_per_close send_callback_passed_on_at_most_once_per_send send_hands_everything_over","every environment, polite or not; the last theorem for outgoing data below 2^31 bytes")
c("C79","proved","tls_bytes_handed_over_in_order plain_text_passed_on_in_order","every environment; if every open passes a bytes callback. Bytes may be passed on after close when close is called from the bytes callback: bytes_after_close_refuted")
c("C80","proved","no_data_before_the_handshake","every environment")
c("C81","partial","created_holds_everything failed_create_releases_partial failed_create_leaks_underlying_refuted","FALSE in the code: the underlying io is leaked when BIO_set_mem_eof_return or SSL_new fails; everything else is released")
c("C62","partial","uniqueid_text_partial uniqueid_too_small uniqueid_injective uniqueid_reads_back_refuted","proved with the digits of each octet read low digit first; in the usual order the text does not read back as the generated octets (refuted for all octets but those of two equal digits)")
c("C82","partial","uniqueid_variant_partial uniqueid_version_refuted","the variant is right; the version digit is random (the '4' goes to the wrong place)")
c("C63","proved","condition_wait_deadline condition_wait_unlimited condition_wait_null condition_clock","seconds below 2^63-2147485, so that the addition does not overflow")
c("C83","proved","no_lost_wakeup no_deadlock lock_excludes","the pthread functions are the POSIX machine in Condition_Sync.v; the calls are those the modelled functions make")
c("C84","proved","lock_memory condition_memory","")
c("C64","partial","sleep_request join_delivers_partial threads_defined joined_is_freed failed_join_refuted","sleep and the delivered values: proved for every history; the memory is safe in every history whose joins do not fail; after a failing pthread_join the instance is freed under a thread that may still have to read it (refuted)")
c("C85","partial","sleep_lasts_partial sleep_lasts_refuted","true without signals; a signal handler ends the sleep early (nanosleep's EINTR is ignored)")
c("C68","proved","tickcounter_monotone tickcounter_exact tickcounter_errors tickcounter_clock_set_back","double arithmetic modelled by exact rounding to 53 bits; exact below 2^53 ms, monotone below 2^64 ms; tickcounter_clock_set_back shows why the condition on the clock is needed (time() is the wall clock)")
c("C65","proved","init_deinit_counted init_result","every history, any answers of curl_global_init")
c("C66","partial","request_answered_partial one_piece_safe execute_request growth_failure_refuted","proved when no reallocation fails after a first piece was stored; in that case the freed block is used again (growth_failure_refuted: refuted)")
c("C67","partial","header_line_fields_partial header_line_one header_line_none put_is_add header_line_length_refuted","proved for lines followed by a 0; the length is ignored, so without a 0 (which libcurl does not promise) the bytes behind the line are parsed too: refuted")
c("C86","partial","connection_owned_partial broken_handle_refuted","proved but for a failing allocation of the host name, where a handle with indeterminate fields is returned (refuted)")
c("C87","partial","execute_request history_as_asked_partial options_as_asked get_with_content_refuted","proved for every history except the method of GET requests with content, which go out as POST (refuted); libcurl modelled by its documentation")
c("C88","partial","execute_request request_answered_partial lost_body_refuted stale_content_refuted","the exact table of results is proved; refuted: a body that could not be handed over is reported as OK, and an empty body leaves the old content in the buffer")
c("C89","proved","option_set cloned_option","for values of the documented types")
c("C90","partial","c11_wait_deadline_partial c11_wait_unlimited c11_wait_null c11_sleep c11_wait_too_short_refuted","the deadline is computed from whole seconds: the wait is too short by the part of the second already gone (refuted for every such clock reading); never late, less than a second early")
c("C91","partial","c11_lock_memory c11_condition_memory c11_results c11_condition_uninitialised_refuted","memory proved; a condition that could not be initialised is returned all the same (refuted)")
c("C92","proved","uniqueid_linux_text uniqueid_linux_too_small","uuid_unparse by its documentation")
c("C93","proved","reentrancy_safe reentrancy_no_leak destroy_in_callback_refuted dowork_in_completion_refuted","safety under the rules, for every nesting; and for each rule, breaking it in any reachable state leads to undefined behaviour (dowork: a twice completed and twice freed entry)")
c("C94","partial","reentrant_close_closes closed_stays_closed_partial close_in_completion_refuted","refuted when close is called within the completion callback (or io error) of a message sent by dowork while more are pending: the loop goes on, drops a message and leaves the io in error, not closed; proved otherwise")
c("C95","partial","reentrant_messages_partial","same accounting (explains) as C58 for the non re-entrant io, with the same exceptions: a message the kernel refuses is dropped without a callback, and bytes are repeated after a partial send of a pending message (completion_on_failure_refuted and the other refutations of C56-C58)")
c("C96","proved","reentrant_descriptors","for every run, even one that breaks the rules")
c("C97","partial","buffer_read_early_partial buffer_read_late_refuted","refuted when sent bytes are logged: the buffer is read again after the completion callback; proved otherwise")
c("C98","proved","wolf_bytes_reach_wolfssl wolf_records_handed_over wolf_plain_text_passed_on","wolfSSL an arbitrary machine, environment with re-entrant calls; plain text: for opens given a bytes callback")
c("C99","proved","wolf_handshake_first","")
c("C100","partial","wolf_send_callback_partial wolf_send_callback_twice_refuted wolf_send_callback_stale_refuted","refuted: the callback is handed over once per record, and again with records wolfSSL writes of its own; proved: it is always that of the last send given to wolfSSL")
c("C101","partial","wolf_open_reported_partial wolf_open_reported_twice_refuted wolf_open_stuck_refuted","refuted: the handshake is started both by open and when the underlying io reports that it is open, so success is reported twice, or the io is stuck in the handshake; proved: no more successes than openings asked for and reported")
c("C102","partial","wolf_opened_once_in_a_life wolf_reopen_refuted","refuted for every run: the state is never NOT_OPEN again, so at most one open in the life of an io gets past the underlying open")
c("C103","partial","wolf_dowork_returns_partial wolf_dowork_never_returns_refuted wolf_closed_dowork_refuted wolf_open_never_returns_refuted","refuted: the receive loop only stops when bytes come or the io is open; dowork on a closed io, and open when the underlying io fails during the handshake, spin for ever")
c("C104","partial","wolf_destroy_releases_everything wolf_failed_create_partial wolf_failed_create_leaks_refuted","refuted: the underlying io is leaked when wolfSSL_new fails; everything else proved")
c("C105","partial","request_sent_partial request_sent_refuted conversions_32","proved when every send takes all its bytes or fails (the other case loses bytes and returns HTTPAPI_OK: refuted)")
c("C106","partial","reply_read replies_in_order spaced_coding_refuted trailer_refuted confusion_refuted","proved for every reply of the given grammar, any split, any number of requests; refuted for a space after the coding and for trailers, and after a failure the next request reads the rest of the old response")
c("C107","partial","request_ends no_undefined_partial ok_means_partial receive_error_undefined_refuted receive_error_ok_refuted no_memory_undefined_refuted used_buffer_undefined_refuted wrap_undefined_refuted alloc_failed_never_returned","proved: it always returns; without receive errors, with memory, an empty buffer and countable lengths there is no undefined behaviour and OK means a response; each of these conditions is shown necessary")
c("C108","partial","truncated_chunked_partial truncated_sized_refuted","proved for chunked responses; a sized content that is cut is returned as HTTPAPI_OK with bytes never written")
c("C109","partial","handle_life_partial session_leak_refuted failed_handshake_leak_refuted option_stored option_refused option_copied late_certificate_unused","the socket is closed and the context freed unless a session still holds it; the session of a connected handle is leaked in every history (refuted)")
c("C110","partial","connection_kept try_again_partial never_again_refuted","a connection is kept; after a failed connect that left the socket open no later request ever connects (refuted)")
c("C111","partial","win_elapsed_partial win_drift_refuted win_long_pause_refuted win_errors win_backup_same mbed_elapsed_partial mbed_exact mbed_long_pause_refuted mbed_ticker_wrap_refuted win_create_reads","proved: bounds on the error for reads not too far apart, monotone, exact on mbed where a tick is a whole number of milliseconds; refuted: a microsecond is lost per read on Windows (a busy reader's counter stands still), long pauses overflow on both")
c("C112","partial","mbed_thread_runs_its_function mbed_join_partial mbed_handles_distinct_partial mbed_handle_never_reused mbed_no_fifth_thread_refuted mbed_shared_handle_refuted mbed_return_never_joined_refuted","proved when threads are created one after the other has begun; refuted: two threads share a handle otherwise, slots are never free again, a thread that returns is never joined")
c("C113","partial","c11_create_all_or_nothing c11_join_releases c11_join_twice win_join_releases win_create_partial win_create_failed_refuted","C11 proved in full; on Windows a failed CreateThread is reported as THREADAPI_OK")
c("C114","partial","win_uid_partial win_uid_overread_refuted win_uid_refused win_uid_no_memory","proved for exactly 37 bytes; every larger buffer makes memcpy read beyond the text")
c("C115","proved","mbed_sleep","")
c("C116","partial","sch_stream_partial sch_timely_partial sch_stall_refuted sch_handshake_extra_lost_refuted sch_no_memory_lost_refuted sch_bad_record_silent_refuted sch_nested_lost_refuted","order and completeness proved; false: records that come together wait for further bytes, bytes after the last handshake token or without memory are lost, a bad record is not reported")
c("C117","partial","sch_open_once_partial sch_open_twice_refuted sch_open_silent_refuted sch_handshake_failure_silent_refuted sch_failed_open_ignored_refuted sch_open_error_refuted","at most once proved when xio_send does not call back; false otherwise, and several failures are never reported")
c("C118","partial","sch_close_at_most_once sch_close_reported_partial sch_close_stuck_refuted sch_close_in_send_refuted sch_close_opened_refuted sch_reopen_stale_refuted","at most once proved for every execution, exactly once when undisturbed; false: close lost when xio_close fails or the open ends late, old bytes kept for the next session")
c("C119","partial","sch_send_chunks sch_send_part_refuted sch_send_empty_refuted","pieces proved in full; false: a failed send may have sent the beginning, an empty send never calls back")
c("C120","partial","sch_create_clean sch_blocks_freed sch_credentials_partial sch_context_leak_refuted sch_credentials_leak_refuted","blocks proved; false: security contexts and tokens are never given back, nor all but the last credential handle")
c("C121","partial","sch_safe_partial sch_nested_undefined_refuted","proved unless bytes come in the middle of a delivery")
c("C122","partial","sm_safe_partial sm_close_in_callback_refuted sm_dowork_in_callback_refuted sm_reopen_undefined_refuted","proved when callbacks only send and open comes only when closed; false: close in on_bytes_received, dowork in on_send_complete, an open that fails while open")
c("C123","partial","sm_stream_partial sm_partial_write_refuted","proved when the connection takes each queued message whole or not at all; false: after a partial write of k bytes the last k bytes of the message go out twice, for every message and k")
c("C124","partial","sm_received sm_peer_close_silent_refuted","bytes proved for every execution; false: the end or failure of the connection is never reported")
c("C125","partial","sm_sessions_partial sm_leak_refuted sm_open_twice_refuted","proved when open comes only when closed; false: each close leaks the connection object, exactly as many as there were closes")
c("C126","partial","sm_stale_refuted sm_spin_refuted","false: messages queued when the io is closed go to the next peer; dowork does not return while the connection takes nothing")
c("C127","partial","sw_safe_partial sw_dowork_in_callback_refuted sw_destroy_in_callback_refuted","proved for all calls from callbacks but destroy, and dowork in the on_send_complete of a queued message; those two are undefined")
c("C128","partial","sw_stream_partial sw_partial_send_refuted sw_failed_send_refuted sw_dropped_refuted","proved when sockets take all or nothing; false after a partial send, for every message and cut: sent again from its beginning, or refused with its beginning sent, or dropped silently")
c("C129","partial","sw_received sw_receive_error sw_nothing_quiet sw_peer_close_silent_refuted sw_error_after_close_refuted","bytes and errors proved for every execution; false: the end of the stream is never reported, and an error follows a close made in on_bytes_received")
c("C130","proved","sw_sockets sw_sessions sw_open_sockets","every execution, whatever is called from callbacks")
c("C131","partial","sw_stale_refuted sw_spin_refuted sw_accepted_reopen_refuted","false: queued messages go to the next peer; dowork spins while the socket is full; an accepted io opened again connects to the machine itself")
c("C132","partial","lock_excludes lock_null lock_freed lock_foreign_unlock_refuted","exclusion proved for any number of threads and every interleaving; false on Windows: an Unlock by a thread that does not have the lock is undefined instead of LOCK_ERROR")
c("C133","partial","mbed_condition_refuted","false: Condition_Init always fails, Post always says COND_ERROR (also for NULL), Wait never waits")
c("C134","proved","mbed_platform win_platform platform_results","all outcomes of the calls made")
c("C135","proved","tirtos_sends tirtos_ok_sent tirtos_invalid tirtos_codes","every request; the fields go out last first")
c("C136","partial","tirtos_response_partial tirtos_response_no_buffer tirtos_headers_broken tirtos_body_cut_refuted tirtos_buffer_refuted","proved for every chunking into an empty buffer; false: a body that is cut short by the network or by memory is given out with HTTPAPI_OK, and a buffer that is not empty ends up with unwritten bytes")
c("C137","partial","tirtos_defined tirtos_memory_partial tirtos_leak_refuted","no undefined behaviour and nothing lost unless memory runs out; false when the block of a header cannot grow: it is lost")
c("C138","proved","tirtos_connections","all outcomes of the library's calls")
c("C139","proved","win_headers_text win_headers_made","every header list and every failure")
c("C140","partial","win_sends_partial win_invalid win_large_refuted","proved for contents of less than 4 GB; false beyond: the content is cut to its length modulo 2^32 and the call succeeds")
c("C141","partial","win_response_partial win_body_cut win_short_read_refuted win_headers_dropped_refuted win_reason_refuted","proved for every response and chunking when reads give what was announced; false: a short read leaves unwritten bytes in the body, response headers that cannot be had are left out with HTTPAPI_OK, a colon in the reason makes a header")
c("C142","partial","win_memory_partial win_defined win_leak_refuted","every path gives back blocks and handles but one: a response header that cannot be added is lost")
c("C143","partial","win_session win_init_result win_connection_partial win_connection_refuted win_close_late_refuted","the session is proved for all histories; false: when the host name cannot be converted or copied a handle with an unwritten connection is given out, and a connection closed after the last Deinit is kept")
c("C144","proved","win_timeout win_sends_partial","every value; the message sent carries the timeout of the handle")
c("C145","proved","ce_certificate_accepted ce_certificates_freed ce_certificate_options ce_expired_certificate_refuted ce_signed_certificate_refuted","exact for every store content; the two refutations show what a user may wrongly expect of the check")
c("C146","proved","ce_requests_secure ce_last_request_secure ce_sockets_closed","all histories; also for the trace of a last request that runs into undefined behaviour")
c("C147","partial","ce_try_again_partial ce_unresolved_refuted ce_unsecured_refuted","true when connect or socket fails; false when the name is not resolved (the result is an uninitialised variable and the handle is dead for ever) and when the socket cannot be made secure")
c("C148","partial","ce_connects ce_reply_read ce_request_sent_partial ce_numeric_host_refuted ce_never_an_address","proved for hosts that begin with a letter and sends that take all or fail; every host that begins with three dotted numbers overruns a local array; the limits of the reading code are those of C105-C110")
c("C149","proved","ce_init_balanced ce_handle_created ce_handle_is_new ce_options_refused","all answers, names and values")
c("C150","proved","option_passed option_unknown_refused option_null","stacks of any depth, every option name and value")
c("C151","partial","trusted_certs_openssl trusted_certs_openssl_taken trusted_certs_wolfssl trusted_certs_schannel_refused trusted_certs_history trusted_bundle_refuted","the first certificate of each call that returned 0, after every history; refuted for bundles: an OpenSSL io trusts only the first certificate of a text and still returns 0; Schannel ios have no such option; for wolfSSL what the library took is trusted")
c("C152","partial","options_bios_freed options_certs_freed_partial options_cert_leak_refuted","BIOs always; certificates when the call fails; refuted when it succeeds: the reference of the object read is never given back")
c("C153","proved","normalize_spec normalize_same normalize_idempotent tokens_normal","every string, every answer of malloc")
c("C154","proved","types_spec types_unique spelling_does_not_matter","every history")
c("C155","proved","umock_spec deinit_frees","every adaptive careful test")
c("C156","partial","both_empty in_order equal_strings_partial equal_strings_refuted","both strings empty exactly when the expected calls were made in order; equal strings without brackets in names and arguments mean the expected calls up to order; refuted in general: expected f then g, called g then f, leaves both strings equal to [g()]")
c("C157","partial","init_partial init_knows_c_types init_failed_stays init_retry_refuted","success and the types of C; refuted for retrying: after one failure for want of memory the types stay initialised, so every later init fails and deinit does nothing")
c("C158","proved","stringify_buffer_spec","")
c("C159","proved","args_text_spec","")
c("C160","partial","mocks_follow_test_partial story_careful story_played hook_not_called_refuted validate_buffer_null_refuted","proved with memory and with pointers that can be read: a simulation by a small reading of the test; refuted: a mock without a result whose call was expected never calls its hook; an expected buffer is compared with what a NULL argument points to")
c("C161","partial","mocks_follow_test_partial modifier_without_call_refuted expectation_without_memory_refuted","proved with memory; refuted: IgnoreAllArguments with nothing expected dereferences NULL, unlike the others; when recording the expectation failed for want of memory nothing is reported and its modifiers change the one before it")
c("C162","partial","mocks_follow_test_partial mock_frees_unwritten_return_refuted deinit_forgets_copies_refuted mock_without_memory_refuted","call data in memory are exactly those of known calls, copies given back at reset; refuted: flags of an actual call's data are never written, so an unwritten return value may be freed; deinit without reset never gives copies back; no memory for call data is a NULL dereference")
c("C163","partial","run_tests_partial run_tests_case cleanup_assertion_refuted suite_cleanup_assertion_refuted second_run_refuted","proved for the first run of a suite when the suite cleanup does not fail an assertion; an assertion in the suite cleanup jumps back into a finished frame (undefined), and a suite run twice keeps the failures of the first run")
c("C164","partial","green_partial cleanup_assertion_refuted","tests, initialisers and the suite cleanup; an assertion that fails in the cleanup of a test is not counted (refuted)")
c("C165","partial","int_compare_spec char_ptr_compare_partial char_ptr_compare_refuted shown_string_partial shown_string_refuted","a NULL right-hand string is handed to strcmp; with the sprintf fallback of the Microsoft compiler and the bundled snprintf, long strings overrun (refuted)")
c("C166","partial","integer_text_partial type_ranges integer_text_case integer_texts_differ_partial size_text_refuted integer_equal_spec integer_copy_spec integer_null_arguments","a size_t from 2^32 on is printed modulo 2^32 (refuted)")
c("C167","partial","real_text_partial special_texts real_text_case real_text_refuted real_equal_spec nan_copy_refuted","numbers below 10^23; 2^80 overruns the buffer, long double is printed as double, a NaN does not equal its copy (all refuted)")
c("C168","partial","string_text_partial string_text_refuted string_texts_refuted string_copy_partial string_equal_partial string_copy_case","a NULL char* is dereferenced; quotes are not escaped so two argument lists may have one text (refuted)")
c("C169","partial","any_order_partial any_order_green_partial nice_partial any_order_case wildcard_refuted exactly_twice_refuted at_least_refuted","expectations that ask for at least one call and are not marked exact; the permutation for calls without ignored arguments (with them, calls that could all be matched may be reported: refuted); exact expectations block later ones for the same call, and at-least behaves as exactly under the strict comparer (refuted)")
c("C170","partial","in_order_partial in_order_green_partial in_order_case never_invoked_refuted","expectations that ask for at least one call; one that asks for none stops the comparer (refuted)")
c("C171","partial","reset_partial ordered_reset_refuted reset_actual_refuted","the unordered and nice comparers; the ordered comparer keeps its place, and expectations met before ResetActualCalls stay used up (refuted)")
c("C172","partial","enum_text_partial enum_read_spec enum_round_trip_spec enum_read_back_spec enum_null_arguments enum_case negative_enum_refuted","proved where enumerations are unsigned and for values that are not negative; where they are int, a negative value reads before the table (refuted)")
c("C173","partial","validations_spec validate_buffer_partial validate_null_argument validate_no_memory validate_case conflict_case empty_validation_refused nested_validation_refuted validation_without_memory_refuted","for validations where the one that begins last also ends last and with memory for the copies; nested ones overflow the mask, a validation without memory is dereferenced (refuted)")
c("C174","partial","copy_out_spec copy_out_case copy_out_too_long_refuted copy_out_without_memory_refuted","for buffers that fit the memory of the caller and had memory for their copies; the others are not caught (refuted)")
c("C175","proved","own_stims_in_order tick_too_large time_before_call stims_case","")
c("C176","partial","mock_strings_equal_partial mock_string_set mock_string_null mock_string_case mock_string_refuted","with memory; NULL and the text NULL print the same, a NULL argument has no place for copied-out bytes, and no memory is undefined behaviour (refuted)")
c("C177","partial","stims_in_order_partial foreign_stims_refuted untimed_call_refuted","for a single mock and stimuli all given with STIM_CALL_AT; the players are shared between mocks, a mock that ends takes the others' along, and a call without a time is made at tick 0 or not at all (refuted)")
c("C178","proved","c11_create_all_or_nothing c11_join_releases win_join_releases","the part of C113 true of the code")
c("C179","proved","sch_send_chunks","the part of C119 true of the code")
c("C180","proved","sm_received","the part of C124 true of the code")
c("C181","proved","sw_received sw_receive_error","the part of C129 true of the code")
c("C182","proved","tirtos_defined","the part of C137 true of the code")
c("C183","proved","win_session win_init_result","the part of C143 true of the code")
c("C184","proved","headers_stored_legal","the part of C36 true of the code")
c("C185","proved","completions_accounted_for dowork_settles","the part of C58 true of the code")
c("C186","proved","uniqueid_shape uniqueid_too_small uniqueid_injective","the part of C62 true of the code")
c("C187","proved","c11_lock_memory c11_condition_memory c11_results","the part of C91 true of the code")
c("C188","proved","wolf_destroy_releases_everything","the part of C104 true of the code")
c("C189","proved","lock_excludes lock_null lock_freed","LockPort_Props; the part of C132 true of the code")
c("C190","proved","sch_create_clean sch_blocks_freed","the part of C120 true of the code")
c("C191","proved","options_bios_freed","the part of C152 true of the code")
c("C192","partial","array_life_partial array_life_case array_throw array_throw_refuted arrays_alike_refuted arrays_of_integers arrays_of_chars_partial arrays_of_chars_refuted","with memory, for integers printed as numbers and for characters that are not 0; what follows a 0 in arrays of char or unsigned char is not compared, and a SetValue without memory leaves a value that is freed twice (both refuted)")
c("C193","partial","wide_partial wide_kept wide_refuted","for texts other than NULL; NULL is taken for the text NULL and given back as it, and characters from 256 on print as others or end the text (refuted)")
c("C194","partial","pointer_arguments_partial pointer_arguments_case pointer_arguments_refuted","with memory and sizes set for arguments that are not NULL and have as many elements; for NULL a pointer never set is read (refuted)")
c("C195","partial","singleton_partial singleton_last singleton_case singleton_refuted","when mocks of a class live one at a time; of two, the end of either takes the singleton away (refuted)")
c("C196","proved","safe_singleton","each interlocked exchange is one step")
c("C197","proved","vectors_refine_arrays_no_failure vectors_other_handles_untouched vectors_push_failure_atomic","the part of C23 true of the code; the arrays of the specification have positive element sizes and sizes below 2^64")
c("C198","proved","request_ends","HttpApiMbed_Safety; the part of C107 true of the code")
c("C199","proved","reply_read replies_in_order","the part of C106 true of the code")
c("C200","proved","win_defined","the part of C142 true of the code")
c("C201","proved","sch_close_at_most_once","the part of C118 true of the code")
c("C202","proved","socket_calls_defined","the part of C60 true of the code; the kernel takes at most 2^31 bytes")
c("C203","proved","reported_open_completes_exactly_once","the part of C61 true of the code")
c("C204","proved","usha_threads_different_files","the part of C45 true of the code")
c("C205","proved","threads_defined","the part of C64 true of the code")
c("C206","proved","trusted_certs_openssl trusted_certs_wolfssl","the part of C151 true of the code")
c("C207","proved","tokenizer_tokens listed_unique tokenizer_tokens_case","")
c("C208","proved","every_kind_of_expectation every_kind_unique every_kind_case","unordered and nice comparers")
c("C209","proved","every_kind_of_expectation_in_order every_kind_in_order_unique every_kind_in_order_case","")
c("C210","partial","mutex_excludes_partial mutex_abandoned_refuted micromock_mutex_opposite mutex_case","false of a thread that ends with the mutex: the next is told that acquire failed, and has it")
c("C211","partial","leaks_reported_by_the_last_partial init_waits_only_for_many leaks_case leaks_after_kill_refuted","false when a process is killed between the two macros")
c("C212","proved","sch_callbacks_own sch_histories sch_callbacks_case","")
c("C213","proved","sm_callbacks_own sm_histories sm_callbacks_case","")
