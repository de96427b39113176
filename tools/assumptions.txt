251 theorems named in MANIFEST.json; "Closed under the global context": 251; with axioms: 0
Base64_Props.base64_round_trip
Base64_Props.base64_encode_rfc4648
Base64_Props.base64_encode_bytes_rfc4648
Base64_Props.base64_length
Base64_Props.base64_decoder_safe_refuted
Base64_Props.base64_decoder_unpadded_overflows
Base64_Props.base64_decoder_defined_refuted
Base64_Props.base64_decoder_in_bounds_partial
Base64_Props.base64_decode_canonical
Base64_Props.base64_text_is_canonical
Base64_Props.base64_injective
UrlEncode_Props.url_encode_string_correct
UrlEncode_Props.url_encode_correct
UrlEncode_Props.url_encode_injective
UrlEncode_Props.url_encode_plain_unchanged
Strings_Props.strings_refine_texts
Strings_Props.strings_refine_texts_no_failure
Strings_Props.strings_other_handles_untouched
Strings_Props.strings_failure_changes_nothing
Strings_Props.strings_defined_under_alloc_failure
Strings_Props.new_JSON_reads_back
Strings_Props.json_literal_reads_back
Strings_Props.concat_self_undefined_refuted
Strings_Props.concat_self_loses_terminator_refuted
Strings_Props.compare_orders_texts
Strings_Props.compare_total_order
Strings_Props.compare_null
Tokenizer_Props.tokenizer_fields_partial
Tokenizer_Props.tokenizer_fields_refuted
Tokenizer_Props.tokenizer_first_listed_wins_refuted
Tokenizer_Props.tokenizer_step
Tokenizer_Props.tokenizer_bounded
Tokenizer_Props.tokenizer_end_is_final
Crt_Props.strcpy_s_correct
Crt_Props.strncpy_s_correct
Crt_Props.strcat_s_correct
Crt_Props.strcat_s_unterminated
Crt_Props.copies_null
Crt_Props.sprintf_s_correct
Crt_Props.mallocAndStrcpy_s_correct
Crt_Props.copies_size_zero_refuted
Crt_Props.unsignedIntToString_correct
Crt_Props.size_tToString_correct
Crt_Props.decimal_exists_unique
Crt_Props.decimal_64bit_length
Buffer_Props.buffers_refine_sequences
Buffer_Props.buffers_refine_sequences_no_failure
Buffer_Props.buffers_other_handles_untouched
Buffer_Props.buffers_failure_changes_nothing_partial
Buffer_Props.buffers_failed_append_frees_refuted
Buffer_Props.buffers_enlarge_to_zero_refuted
Buffer_Props.buffers_sizes_add_partial
Buffer_Props.buffers_enlarge_wraps_refuted
List_Props.lists_refine_sequences
List_Props.lists_walk
List_Props.lists_handles_distinct
List_Props.lists_failure_changes_nothing
List_Props.lists_destroyed_nothing_left
List_Props.list_find_first
DList_Props.dlists_refine_sequences
DList_Props.dlists_links_inverse
DList_Props.dlists_untouched
DList_Props.dlists_append
Vector_Props.vectors_refine_arrays_partial
Vector_Props.vectors_refine_arrays_no_failure
Vector_Props.vectors_other_handles_untouched
Vector_Props.vectors_push_failure_atomic
Vector_Props.vectors_erase_shrink_refuted
Vector_Props.vectors_zero_size_refuted
Vector_Props.vectors_access_partial
Vector_Props.vectors_element_at_size_refuted
Vector_Props.vectors_back_empty_refuted
Vector_Props.vectors_erase_in_range_partial
Vector_Props.vectors_erase_out_of_range_refuted
Map_Props.maps_refine_finite_maps
Map_Props.maps_refine_finite_maps_no_failure
Map_Props.maps_other_handles_untouched
Map_Props.spec_insert_lookup
Map_Props.spec_update_lookup
Map_Props.spec_delete_lookup
Map_Props.maps_keys_unique
Map_Props.maps_failure_changes_nothing
Map_Props.maps_filter_lost_by_delete_refuted
Map_Props.maps_filter_lost_by_clone_refuted
Map_Props.maps_filter_kept_partial
Map_Props.maps_filter_respected_partial
Map_Props.maps_clone_equal_independent
Map_Props.maps_clone_filter
Map_Props.maps_tojson
Map_Props.json_pairs_read_back
Map_Props.maps_tojson_no_leak
Refcount_Props.refcount_no_use_after_free
Refcount_Props.refcount_alive_while_referenced
Refcount_Props.refcount_freed_after_last
Refcount_Props.refcount_overflow_refuted
ConstBuffer_Props.constbuffers_refine_sequences
ConstBuffer_Props.constbuffers_refine_sequences_no_failure
ConstBuffer_Props.constbuffer_content_immutable
ConstBuffer_Props.constbuffer_create_atomic
ConstMap_Props.constmap_snapshot
ConstMap_Props.constmap_clonewriteable
HttpHeaders_Props.headers_legal_partial
HttpHeaders_Props.headers_empty_name_refuted
HttpHeaders_Props.headers_refine_lists
HttpHeaders_Props.headers_refine_lists_no_failure
HttpHeaders_Props.spec_put_effect
HttpHeaders_Props.merge_codes_exact
HttpHeaders_Props.headers_injection_refuted
Gballoc_Props.gballoc_accounts_exactly
Gballoc_Props.gballoc_current_and_maximum
Gballoc_Props.gballoc_reinit_refuted
Gballoc_Props.gballoc_threads_partial
Gballoc_Props.gballoc_concurrent_free_refuted
Gballoc_Props.gballoc_lost_block_refuted
Sha_Props.usha_digest
Sha_Props.usha_history
Sha_Props.usha_final_bits
Sha_Props.usha_input_after_result
ShaRace_Props.usha_threads_partial
ShaRace_Props.usha_threads_different_files
ShaRace_Props.usha_threads_refuted
Hmac_Props.hmac_history
Hmac_Props.hmac_rfc2104
Hmac_Props.hmac_correct
HmacSha256_Props.hmacsha256_partial
HmacSha256_Props.hmacsha256_invalid
HmacSha256_Props.hmacsha256_nonempty_refuted
HmacSha256_Props.hmacsha256_long_key_ignored
HmacSha256_Props.hmacsha256_long_payload_cut
HmacSha256_Props.compute_hash_general
Sas_Props.sas_token_partial
Sas_Props.sas_token_general
Sas_Props.sas_token_null_arguments
Sas_Props.sas_token_undecodable_key
Sas_Props.sas_token_empty_key
Sas_Props.sas_token_bad_key_refuted
Sas_Props.sas_fields_recovered
Sas_Props.sas_token_injective
HttpApiEx_Props.execute_always_returns
HttpApiEx_Props.every_call_bounded
HttpApiEx_Props.calls_below_balanced
HttpApiEx_Props.destroy_leaves_nothing
HttpApiEx_Props.result_is_the_last_requests
HttpApiEx_Props.response_is_stored
HttpApiEx_Props.first_try_response_is_exact
HttpApiEx_Props.response_headers_of_last_request_refuted
HttpApiEx_Props.options_are_replayed
HttpApiEx_Props.setoption_before_connection
HttpApiEx_Props.refused_option_is_replayed_refuted
HttpApiEx_Props.request_headers_sent
HttpApiEx_Props.full_headers_meaning
HttpApiEx_Props.header_names_distinct
HttpApiEx_Props.one_host_header_refuted
HttpApiExSas_Props.sas_request_is_plain_request
HttpApiExSas_Props.sas_request_refreshes_authorization
HttpApiExSas_Props.sas_create
HttpApiExSas_Props.sas_create_null
HttpApiExSas_Props.sas_destroy
Xio_Props.xio_faithful
Xio_Props.xio_usable
Xio_Props.xio_create_succeeds
Xio_Props.xio_destroyed_once
SocketIo_Props.stream_preserved_partial
SocketIo_Refuted.stream_preserved_refuted
SocketIo_Refuted.stream_skips_message_refuted
SocketIo_Refuted.stream_refused_part_refuted
SocketIo_Fates.messages_accounted_for
SocketIo_Props.dowork_settles
SocketIo_Refuted.completion_on_failure_refuted
SocketIo_Refuted.completion_on_close_refuted
SocketIo_Props.close_discards_partial
SocketIo_Refuted.close_discards_refuted
SocketIo_Props.socket_state_machine
SocketIo_Props.socket_calls_defined
SocketIo_Refuted.close_when_closed_refuted
TlsIo_Open.open_complete_at_most_once_per_open
TlsIo_Exact.reported_open_completes_exactly_once
TlsIo_Socket.socketio_is_polite
TlsIo_Refuted.failed_open_cannot_be_retried_refuted
TlsIo_Refuted.open_complete_twice_refuted
TlsIo_Refuted.open_complete_twice_after_failed_close_refuted
TlsIo_Refuted.closed_open_never_completes_refuted
TlsIo_Refuted.open_never_completes_after_bio_failure_refuted
TlsIo_Refuted.failed_open_completed_refuted
TlsIo_Refuted.reopen_always_fails_refuted
TlsIo_Refuted.last_flight_not_sent_refuted
UniqueId_Props.uniqueid_text
UniqueId_Props.uniqueid_too_small
UniqueId_Props.uniqueid_injective
UniqueId_Props.uniqueid_reads_back_refuted
Condition_Props.condition_wait_deadline
Condition_Props.condition_wait_unlimited
Condition_Props.condition_wait_null
Condition_Props.condition_clock
ThreadApi_Props.sleep_request
ThreadApi_Props.join_delivers
ThreadApi_Props.threads_defined
ThreadApi_Props.joined_is_freed
ThreadApi_Props.failed_join_refuted
HttpApiCurl_Props.init_deinit_counted
HttpApiCurl_Props.init_result
HttpApiCurl_Request.request_answered
HttpApiCurl_Request.one_piece_safe
HttpApiCurl_Request.execute_request
HttpApiCurl_Request.growth_failure_breaks
HttpApiCurl_Props.header_line_fields
HttpApiCurl_Props.header_line_one
HttpApiCurl_Props.header_line_none
HttpApiCurl_Props.put_is_add
HttpApiCurl_Props.header_line_length_ignored
TickCounter_Props.tickcounter_monotone
TickCounter_Props.tickcounter_exact
TickCounter_Props.tickcounter_errors
TickCounter_Props.tickcounter_clock_set_back
Map_Props.maps_update_own_value_refuted
HttpHeaders_Props.headers_replace_own_value_refuted
Gballoc_Props.gballoc_realloc_zero_refuted
Sha_Props.usha_too_long
HttpApiEx_Props.execute_touches_only_its_objects
SocketIo_Props.socket_descriptors
SocketIo_Props.socket_reports
SocketIo_Refuted.dowork_returns_partial
SocketIo_Refuted.dowork_returns_refuted
TlsIo_Once.open_succeeds_at_most_once_in_a_life
TlsIo_Close.close_complete_at_most_once_per_close
TlsIo_Close.send_callback_passed_on_at_most_once_per_send
TlsIo_Close.send_hands_everything_over
TlsIo_Flow.tls_bytes_handed_over_in_order
TlsIo_Flow.plain_text_passed_on_in_order
TlsIo_Flow.no_data_before_the_handshake
TlsIo_Create.created_holds_everything
TlsIo_Create.failed_create_releases_partial
TlsIo_Create.failed_create_leaks_underlying_refuted
UniqueId_Props.uniqueid_variant_partial
UniqueId_Props.uniqueid_version_refuted
Condition_Sync.no_lost_wakeup
Condition_Sync.no_deadlock
Condition_Sync.lock_excludes
Condition_Props.lock_memory
Condition_Props.condition_memory
ThreadApi_Props.sleep_lasts_partial
ThreadApi_Props.sleep_lasts_refuted
HttpApiCurl_Request.connection_owned
HttpApiCurl_Request.broken_handle
HttpApiCurl_Request.history_as_asked
HttpApiCurl_Request.options_as_asked
HttpApiCurl_Request.get_with_content_is_post
HttpApiCurl_Request.lost_body_is_ok
HttpApiCurl_Request.empty_body_keeps_content
HttpApiCurl_Request.option_set
HttpApiCurl_Request.cloned_option
