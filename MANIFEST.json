{
 "claims": [
  {
   "property": "C01",
   "status": "proved",
   "theorems": [
    "C01_validate_accepts_exactly_valid"
   ],
   "note": "Exact characterisation for every Money message."
  },
  {
   "property": "C02",
   "status": "partial",
   "theorems": [
    "C02_add_exact_refuted",
    "C02_add_exact_partial",
    "C02_spurious_overflow_always"
   ],
   "note": "REFUTED: two same-sign amounts below one unit are reported OUT_OF_RANGE although the sum is representable. Partial: exact outside that set (in wrap-around mode, or when the unit sum fits)."
  },
  {
   "property": "C03",
   "status": "partial",
   "theorems": [
    "C03_saturates_refuted",
    "C03_saturates_partial",
    "C03_saturated_is_try"
   ],
   "note": "REFUTED under C++ rules: every non-representable sum is signed overflow (UB). Partial: saturation is right if signed addition wraps around."
  },
  {
   "property": "C04",
   "status": "partial",
   "theorems": [
    "C04_no_ub_refuted",
    "C04_no_ub_partial"
   ],
   "note": "REFUTED: the overflow the code wants to detect is itself UB. Partial: exact characterisation of the inputs without UB."
  },
  {
   "property": "C05",
   "status": "proved",
   "theorems": [
    "C05_mixed_currency_rejected"
   ],
   "note": "For all amounts and both arithmetic modes."
  },
  {
   "property": "C06",
   "status": "proved",
   "theorems": [
    "C06_commutative_and_closed"
   ],
   "note": "For all valid amounts, both arithmetic modes."
  },
  {
   "property": "C07",
   "status": "proved",
   "theorems": [
    "C07_label_order_irrelevant",
    "C07_quota_metric_order_irrelevant",
    "C07_check_metric_order_irrelevant"
   ],
   "note": "Iteration order is an arbitrary hash_order argument."
  },
  {
   "property": "C08",
   "status": "proved",
   "theorems": [
    "C08_report_signature_separates",
    "C08_nul_hypothesis_needed"
   ],
   "note": "Up to an MD5 collision, MD5 being arbitrary. NUL-freeness is shown to be necessary."
  },
  {
   "property": "C09",
   "status": "proved",
   "theorems": [
    "C09_metric_signature_separates"
   ],
   "note": "Up to an MD5 collision, MD5 being arbitrary."
  },
  {
   "property": "C10",
   "status": "proved",
   "theorems": [
    "C10_quota_signature_separates"
   ],
   "note": "Up to an MD5 collision, MD5 being arbitrary."
  },
  {
   "property": "C11",
   "status": "partial",
   "theorems": [
    "C11_check_signature_separates_refuted",
    "C11_check_signature_separates_partial"
   ],
   "note": "REFUTED: labels and metric names are hashed without a separator of kind, so a label can be confused with a metric. Partial: requests following one label schema."
  },
  {
   "property": "C12",
   "status": "proved",
   "theorems": [
    "C12_report_signature_ignores_rest",
    "C12_metric_signature_ignores_rest",
    "C12_check_signature_ignores_rest",
    "C12_quota_signature_ignores_rest"
   ],
   "note": "Congruence for the four signatures."
  },
  {
   "property": "C13",
   "status": "proved",
   "theorems": [
    "C13_int64_totals",
    "C13_defined"
   ],
   "note": "Labels are separated by C09 (no NUL bytes, no digest collision); also proved defined when partial sums fit."
  },
  {
   "property": "C14",
   "status": "proved",
   "theorems": [
    "C14_operation_span",
    "C14_value_span"
   ],
   "note": "Operation span unconditional; value spans for label sets whose values have one type."
  },
  {
   "property": "C15",
   "status": "proved",
   "theorems": [
    "C15_latest_value_kept"
   ],
   "note": "All three non-DELTA kinds."
  },
  {
   "property": "C16",
   "status": "proved",
   "theorems": [
    "C16_log_entries"
   ],
   "note": "Unconditional."
  },
  {
   "property": "C17",
   "status": "proved",
   "theorems": [
    "C17_names_once",
    "C17_label_sets_once"
   ],
   "note": "Names unconditional; label sets under separated signatures."
  },
  {
   "property": "C18",
   "status": "proved",
   "theorems": [
    "C18_identity_of_first"
   ],
   "note": "Unconditional."
  },
  {
   "property": "C19",
   "status": "partial",
   "theorems": [
    "C19_no_data_dropped_refuted",
    "C19_doubles_partial",
    "C19_distributions_partial"
   ],
   "note": "Refuted by a type mismatch and by a layout mismatch; proved for int64 (C13), doubles and distributions of one finite layout."
  },
  {
   "property": "C20",
   "status": "proved",
   "theorems": [
    "C20_order_independent"
   ],
   "note": "Including different hash iteration orders on both sides."
  },
  {
   "property": "C21",
   "status": "proved",
   "theorems": [
    "C21_quota_totals",
    "C21_quota_defined"
   ],
   "note": "Debug and release builds."
  },
  {
   "property": "C22",
   "status": "partial",
   "theorems": [
    "C22_quota_merge_safe_refuted",
    "C22_quota_merge_safe_partial"
   ],
   "note": "Refuted by a metric set without values; otherwise only int64 overflow."
  },
  {
   "property": "C23",
   "status": "proved",
   "theorems": [
    "C23_bucket_counts_sum"
   ],
   "note": "All bucket layouts, any interleaving of samples and merges; bucket indices follow the code's own classification."
  },
  {
   "property": "C24",
   "status": "proved",
   "theorems": [
    "C24_explicit_bucket_classifies"
   ],
   "note": "For non-empty strictly increasing NaN-free bounds and any non-NaN sample."
  },
  {
   "property": "C25",
   "status": "partial",
   "theorems": [
    "C25_add_sample_no_ub_refuted",
    "C25_explicit_no_ub_partial",
    "C25_linear_no_ub_partial",
    "C25_exponential_no_ub_partial",
    "C25_exponential_ordinary_partial"
   ],
   "note": "Refuted with four witnesses (empty explicit bounds, NaN width, overflowing linear distance, infinite exponential sample); proved for explicit layouts, linear layouts with finite upper bound, exponential layouts with ordinary parameters."
  },
  {
   "property": "C26",
   "status": "proved",
   "theorems": [
    "C26_extremes"
   ],
   "note": "For NaN-free samples, through additions and merges."
  },
  {
   "property": "C27",
   "status": "proved",
   "theorems": [
    "C27_tolerance",
    "C27_tolerance_zero",
    "C27_merge_adds_or_keeps",
    "C27_only_count_overflow",
    "C27_merges_exactly_similar_layouts",
    "C27_same_layout_merges"
   ],
   "note": "Covers the rejected, empty-source, empty-target and merging branches; only undefined behaviour is count overflow; identical finite layouts always merge."
  },
  {
   "property": "C28",
   "status": "proved",
   "theorems": [
    "C28_mean_and_deviation_exact"
   ],
   "note": "The statistics code is generic in its arithmetic; proved for the rational instance, the binary64 instance rounds."
  },
  {
   "property": "C29",
   "status": "partial",
   "theorems": [
    "C29_init_rejects_refuted",
    "C29_init_explicit_partial",
    "C29_init_exponential_partial",
    "C29_init_linear_partial"
   ],
   "note": "Refuted (NaN, empty bounds, INT_MAX buckets); proved for NaN-free parameters and bucket counts whose +2 fits."
  },
  {
   "property": "C30",
   "status": "proved",
   "theorems": [
    "C30_no_assertion_fires",
    "C30_counters_agree"
   ],
   "note": "Default lookup/release options; the deleter does not call back into the cache; sizes and times unbounded. UpdateSize always names a value. Clock readings are non-negative and non-decreasing."
  },
  {
   "property": "C31",
   "status": "proved",
   "theorems": [
    "C31_destroyed_exactly_once",
    "C31_never_while_in_use",
    "C31_clear_leaks_nothing"
   ],
   "note": "Default lookup/release options; the deleter does not call back into the cache; sizes and times unbounded. Counted over whole histories: inserted = destroyed + alive, and alive iff cached or held."
  },
  {
   "property": "C32",
   "status": "proved",
   "theorems": [
    "C32_lookup_returns_latest",
    "C32_lookup_finds_entry"
   ],
   "note": "Default lookup/release options; the deleter does not call back into the cache; sizes and times unbounded. The second theorem lists every way an entry can leave and says the lookup finds it otherwise."
  },
  {
   "property": "C33",
   "status": "proved",
   "theorems": [
    "C33_size_bounded"
   ],
   "note": "Default lookup/release options; the deleter does not call back into the cache; sizes and times unbounded. "
  },
  {
   "property": "C34",
   "status": "proved",
   "theorems": [
    "C34_least_recent_first",
    "C34_no_more_than_needed"
   ],
   "note": "Default lookup/release options; the deleter does not call back into the cache; sizes and times unbounded. Entries replaced by an insertion or already detached are not evictions and are excluded by other_reason."
  },
  {
   "property": "C35",
   "status": "proved",
   "theorems": [
    "C35_destroys_exactly_the_overdue",
    "C35_keeps_the_rest"
   ],
   "note": "Default lookup/release options; the deleter does not call back into the cache; sizes and times unbounded. In age mode an overdue entry in use is detached, in idle mode entries in use never expire."
  },
  {
   "property": "C36",
   "status": "proved",
   "theorems": [
    "C36_within_a_microsecond",
    "C36_negative_means_none",
    "C36_conversion_defined"
   ],
   "note": "All int32 millisecond values through both binary64 roundings; every non-NaN double converts without undefined behaviour (NaN is undefined, unreachable from the options)."
  },
  {
   "property": "C37",
   "status": "proved",
   "theorems": [
    "C37_links_never_break",
    "C37_pointers_agree_with_lists"
   ],
   "note": "Pointer-level heap with several rings (recency list and deferred lists), every lawful sequence of new/self/link/unlink/free."
  },
  {
   "property": "C38",
   "status": "proved",
   "theorems": [
    "C38_malformed_rejected",
    "C38_important_forwarded",
    "C38_disabled_forwards"
   ],
   "note": "Any state for malformed and important checks; every reachable state when caching is disabled."
  },
  {
   "property": "C39",
   "status": "proved",
   "theorems": [
    "C39_answers_latest"
   ],
   "note": "Every history; also: no response is written unless the status is OK."
  },
  {
   "property": "C40",
   "status": "proved",
   "theorems": [
    "C40_decision",
    "C40_at_most_once_per_interval",
    "C40_interval"
   ],
   "note": "Full decision of Check by history and clock; the interval is exact in microseconds for every int value. 'Stays cached' is the state predicate [cached], characterised by C65."
  },
  {
   "property": "C41",
   "status": "partial",
   "theorems": [
    "C41_expiration_refuted",
    "C41_prompt_partial",
    "C41_idle_partial"
   ],
   "note": "False as stated: expiration is by idle time, so a used entry is served indefinitely while refreshes are outstanding. Proved instead: fresh within the flush interval if the last round trip was answered; otherwise used within the expiration."
  },
  {
   "property": "C42",
   "status": "partial",
   "theorems": [
    "C42_reported_exactly_once",
    "C42_sent_twice_refuted"
   ],
   "note": "Proved: partition of answered operations into flushed or pending merges. The last sentence is false: a check told NOT_FOUND for a stale positive entry is also aggregated and sent again."
  },
  {
   "property": "C43",
   "status": "proved",
   "theorems": [
    "C43_flushed_exactly_once",
    "C43_never_twice"
   ],
   "note": "For every history: groups of equal signature, in order, each accepted operation in exactly one group, groups merged into the flushed operations; what is pending comes out with FlushAll."
  },
  {
   "property": "C44",
   "status": "proved",
   "theorems": [
    "C44_batches"
   ],
   "note": "Also: all requests of one call except the last have exactly 10 operations."
  },
  {
   "property": "C45",
   "status": "proved",
   "theorems": [
    "C45_foreign_rejected",
    "C45_important_forwarded",
    "C45_disabled_forwards",
    "C45_others_accepted"
   ],
   "note": "Both directions: foreign, important and disabled requests leave the state unchanged; all others are accepted."
  },
  {
   "property": "C46",
   "status": "proved",
   "theorems": [
    "C46_flushed_in_time"
   ],
   "note": "The interval is the exact cycle count of the timeout conversion (C36 relates it to milliseconds)."
  },
  {
   "property": "C47",
   "status": "proved",
   "theorems": [
    "C47_logs_bounded",
    "C47_flushed_logs",
    "C47_one_operation_bound_refuted"
   ],
   "note": "The stated bounds are proved; C47_one_operation_bound_refuted shows that the simpler bound 100 + n is false."
  },
  {
   "property": "C48",
   "status": "proved",
   "theorems": [
    "C48_first_request",
    "C48_malformed_rejected",
    "C48_handed_out_once"
   ],
   "note": "C48_first_request plus the rejection of malformed requests and no signature handed out twice in one call."
  },
  {
   "property": "C49",
   "status": "partial",
   "theorems": [
    "C49_refresh_answered_partial",
    "C49_one_refresh_partial",
    "C49_one_refresh_refuted"
   ],
   "note": "False as stated: an answer nobody asked for can hand out a refresh and mark it answered (C49_one_refresh_refuted). Proved when every answer follows an unanswered request, and in general with the answer counted in the call that hands out the first request."
  },
  {
   "property": "C50",
   "status": "proved",
   "theorems": [
    "C50_answer_enforced",
    "C50_denied_refresh_normal"
   ],
   "note": "Both halves proved for every reachable history."
  },
  {
   "property": "C51",
   "status": "partial",
   "theorems": [
    "C51_balance_partial",
    "C51_tokens_partial",
    "C51_tokens_lost_refuted",
    "C51_charged_twice_refuted"
   ],
   "note": "False: FlushAll and denials lose accumulated tokens, and the refresh of an entry that accumulated nothing repeats its first request. C51_balance_partial and C51_tokens_partial give the exact balance with the repeated and the lost parts named, and lost empty if nothing leaves the cache and nothing is denied."
  },
  {
   "property": "C52",
   "status": "partial",
   "theorems": [
    "C52_quota_terminates_refuted",
    "C52_full_cache_recurses_refuted",
    "C52_full_cache_never_returns_refuted",
    "C52_use_after_free_refuted",
    "C52_quota_returns_partial",
    "C52_other_calls_return",
    "C52_construction_completes",
    "C52_destruction_completes"
   ],
   "note": "False for Quota: with a full cache and no stale entry it recurses forever (C52_quota_terminates_refuted, C52_full_cache_recurses_refuted). Proved otherwise (up to UB in merging), and for all other calls, construction and destruction. C52_full_cache_never_returns_refuted: a call for a new signature on a full cache of fresh entries does not return even if entries become stale during it; C52_use_after_free_refuted: it then uses the entry that it has deleted."
  },
  {
   "property": "C53",
   "status": "partial",
   "theorems": [
    "C53_flush_drops",
    "C53_leaves_stale_partial",
    "C53_refresh_recorded",
    "C53_leaves_stale_refuted"
   ],
   "note": "Dropping is proved; 'younger entries stay' is false once FlushAll has been called, because its flag is never cleared (C53_leaves_stale_refuted), and proved if it has not."
  },
  {
   "property": "C54",
   "status": "proved",
   "theorems": [
    "C54_delivered_in_order",
    "C54_delivered_before_return",
    "C54_handled_events",
    "C54_after_the_body",
    "C54_outside_cache_lock",
    "C54_dropped_after_removal"
   ],
   "note": "Over all schedules of the interleaving model of the client; items are dropped only after the destructor has removed the callback."
  },
  {
   "property": "C55",
   "status": "proved",
   "theorems": [
    "C55_at_most_once",
    "C55_exactly_once",
    "C55_before_return",
    "C55_right_answer"
   ],
   "note": "Exactly once when nothing runs and every transport request is answered; at most once always; answered or sent before the call returns."
  },
  {
   "property": "C56",
   "status": "proved",
   "theorems": [
    "C56_statistics_exact",
    "C56_all_requests"
   ],
   "note": "The statistics equal the numbers counted in the trace whenever no thread is inside the client."
  },
  {
   "property": "C57",
   "status": "proved",
   "theorems": [
    "C57_forwarded_iff_not_found",
    "C57_no_transport",
    "C57_only_with_transport"
   ],
   "note": "Forwarded, unchanged and once, exactly if the aggregator said NOT_FOUND; without a transport nothing else happens."
  },
  {
   "property": "C58",
   "status": "proved",
   "theorems": [
    "C58_check_cached_only_ok",
    "C58_quota_failure_is_empty"
   ],
   "note": "Every response that reached a cache is traced back to the transport call that supplied it."
  },
  {
   "property": "C59",
   "status": "partial",
   "theorems": [
    "C59_no_deadlock_partial",
    "C59_only_one_deadlock_partial",
    "C59_aggregator_calls_return",
    "C59_no_deadlock_refuted"
   ],
   "note": "False if the quota transport completes a flushed request in place: the thread waits for the flush mutex it holds, forever (refuted). Proved otherwise; the aggregator calls themselves return unless operations cannot be merged or the full quota cache recurses (C52)."
  },
  {
   "property": "C60",
   "status": "partial",
   "theorems": [
    "C60_only_flushed_quota_partial",
    "C60_late_completion_refuted"
   ],
   "note": "False for the completion of a flushed quota request, which dereferences the deleted client (refuted); proved for all other completions."
  },
  {
   "property": "C61",
   "status": "partial",
   "theorems": [
    "C61_no_report_lost_partial",
    "C61_no_timer_partial",
    "C61_no_callback_afterwards",
    "C61_removed_before_return",
    "C61_no_report_lost_refuted"
   ],
   "note": "False if the timer's thread holds flushed reports while the destructor runs (refuted); proved if no report call is under way when the callback is removed, in particular if the timer never fired. The second half is proved."
  },
  {
   "property": "C62",
   "status": "partial",
   "theorems": [
    "C62_timer_often_enough_partial",
    "C62_no_timer_iff",
    "C62_timer_refuted"
   ],
   "note": "False if an enabled cache has the interval 0: no timer is started for the others (refuted); proved otherwise, with the exact condition."
  },
  {
   "property": "C63",
   "status": "partial",
   "theorems": [
    "C63_expiration_above_flush",
    "C63_defined_partial",
    "C63_defined_refuted"
   ],
   "note": "Proved whenever the constructor is defined; it overflows for flush = INT_MAX (refuted corner)."
  },
  {
   "property": "C64",
   "status": "proved",
   "theorems": [
    "C64_calls_complete",
    "C64_destruction_completes",
    "C64_construction_completes"
   ],
   "note": "The constructor theorem depends on the Reals axioms through the timeout conversion; the others are closed."
  },
  {
   "property": "C65",
   "status": "proved",
   "theorems": [
    "C65_stored_is_cached",
    "C65_only_stored",
    "C65_at_most_capacity",
    "C65_why_it_leaves",
    "C65_overdue_leave"
   ],
   "note": "Entering, leaving, capacity and expiry of cached answers for every history."
  },
  {
   "property": "C66",
   "status": "proved",
   "theorems": [
    "C66_calls_complete",
    "C66_destruction_completes",
    "C66_construction_completes"
   ],
   "note": "UB only from the merge of metrics (C19/C25 etc.); no abort, no hang, no use after delete."
  },
  {
   "property": "C67",
   "status": "proved",
   "theorems": [
    "C67_not_flushed_early"
   ],
   "note": "Assumes room for all accepted signatures; otherwise the oldest group is evicted."
  },
  {
   "property": "C68",
   "status": "partial",
   "theorems": [
    "C68_transport_supplied_partial",
    "C68_default_transport_refuted"
   ],
   "note": "False: a flushed item without a default transport calls a null function inside a noexcept destructor (refuted); this is the only cause."
  },
  {
   "property": "C69",
   "status": "proved",
   "theorems": [
    "C69_done_without_locks",
    "C69_transport_without_locks",
    "C69_flush_transport_locks"
   ],
   "note": "Proved for every step that calls user code."
  },
  {
   "property": "C70",
   "status": "proved",
   "theorems": [
    "C70_sequential",
    "C70_in_trace_order",
    "C70_real_time"
   ],
   "note": "Each aggregator's history is one of the sequential model; numbering follows effect order and real time."
  },
  {
   "property": "C71",
   "status": "proved",
   "theorems": [
    "C71_recorded_before_told"
   ],
   "note": "Proved at the step that runs the done callback."
  },
  {
   "property": "C72",
   "status": "partial",
   "theorems": [
    "C72_no_timer_without_function",
    "C72_default_timer_refuted"
   ],
   "note": "False: without a timer function there is never a timer."
  },
  {
   "property": "C73",
   "status": "proved",
   "theorems": [
    "C73_all_calls_accounted",
    "C73_no_call_without_reason"
   ],
   "note": "Equality of multisets of calls and causes whenever no thread is inside the client; inclusion at any time (no termination by a crash)."
  },
  {
   "property": "C74",
   "status": "proved",
   "theorems": [
    "C74_every_call_returned",
    "C74_each_request_asked_once",
    "C74_forwarded_exactly",
    "C74_reports_end_to_end"
   ],
   "note": "Composes the client model with the conservation theorem of the report aggregator (C43-C47); the condition on report calls under way is needed (C61 refuted)."
  },
  {
   "property": "C75",
   "status": "partial",
   "theorems": [
    "C75_one_scoped_lookup_partial",
    "C75_overlapping_lookups_partial",
    "C75_age_mode_partial",
    "C75_held_past_the_limit_refuted",
    "C75_mixed_options_corrupt_refuted",
    "C75_mixed_options_leak_refuted"
   ],
   "note": "False as a whole in LRU mode: an entry held past the idle limit trips an assertion, and overlapping scoped lookups of one entry with different options corrupt the list or make the entry impossible to evict. Proved: one such lookup at a time, in every state; any number of overlapping ones when no idle limit is set; age-based mode, where the option has no effect. Missing: such lookups interleaved with other calls in LRU mode."
  },
  {
   "property": "C76",
   "status": "proved",
   "theorems": [
    "C76_iteration_exact",
    "C76_iteration_agrees_with_lookup"
   ],
   "note": "One uninterrupted pass of the iterator."
  },
  {
   "property": "C77",
   "status": "proved",
   "theorems": [
    "C77_digest_of_all_data",
    "C77_no_update_after_digest",
    "C77_signatures_use_it_properly",
    "C77_printable_digest",
    "C77_printable_digest_injective"
   ],
   "note": "For an arbitrary digest function in place of OpenSSL's. The examples instantiate it with RFC 1321 and reproduce the digests expected by the project's tests."
  },
  {
   "property": "C78",
   "status": "proved",
   "theorems": [
    "C78_no_bad_pointer",
    "C78_same_histories",
    "C78_counters_agree",
    "C78_memory",
    "C78_eviction_list",
    "C78_deferred_rings"
   ],
   "note": "For a deleter that does not call back into the cache. Model in PLru.v: elements are nodes with next and prev pointers, head_ is node 0, the deferred table maps a key to the first element of its ring, exactly as in the code. C78_same_histories carries C30-C35 over to the pointer level."
  },
  {
   "property": "C79",
   "status": "partial",
   "theorems": [
    "C79_named_codes_refuted",
    "C79_other_codes_partial",
    "C79_class_partial"
   ],
   "note": "Refuted: no case of the switch ends in a break, so all eleven named statuses are overwritten by the default. Proved: what each code gets instead."
  },
  {
   "property": "C80",
   "status": "partial",
   "theorems": [
    "C80_failure_is_told_as_success_refuted",
    "C80_denied_check_passes_refuted",
    "C80_status_is_parse_partial",
    "C80_report_status_is_parse_partial"
   ],
   "note": "Refuted: SendHttp stores the converted status in a variable that shadows the one it returns, so a failed exchange is reported as OK with an empty response, which the client caches (a run of the client model shows the next check passing). Proved: the status is exactly whether the body received parses. libcurl and protobuf parsing are arguments."
  },
  {
   "property": "C81",
   "status": "partial",
   "theorems": [
    "C81_cut_at_nul_refuted",
    "C81_posted_whole_partial",
    "C81_check_address",
    "C81_report_address"
   ],
   "note": "Refuted: CURLOPT_POSTFIELDS without CURLOPT_POSTFIELDSIZE measures the body with strlen, so it is cut at the first NUL byte. Proved: otherwise it is posted whole, and exactly then. A check and a report each go to their own address."
  },
  {
   "property": "C82",
   "status": "partial",
   "theorems": [
    "C82_linear_exact_refuted",
    "C82_linear_grid_partial",
    "C82_linear_near_partial",
    "C82_linear_order_partial",
    "C82_linear_special_partial"
   ],
   "note": "Refuted: rounding puts 0.9 above nine times 0.1. Proved: exact when sample, width and offset are multiples of one power of two (whole numbers, for instance); otherwise the boundaries are right to a millionth of a width (plus the rounding of the offset at the upper end); order and infinities. Layouts whose computed upper end is not finite are left to C25."
  },
  {
   "property": "C83",
   "status": "partial",
   "theorems": [
    "C83_exponential_exact_refuted",
    "C83_exponential_near_partial",
    "C83_exponential_order_partial"
   ],
   "note": "Refuted: even with the correctly rounded log2 the double before 256 is counted with 256. Proved: the boundaries are right up to a factor of 1 + 2^-35, for any log2 within one part in 2^52, and order for a monotone log2; the correctly rounded log2 is shown to be both. Missing: exactness away from such near misses, infinite samples (C25)."
  },
  {
   "property": "C84",
   "status": "partial",
   "theorems": [
    "C84_mean_between_refuted",
    "C84_mean_overflow_refuted",
    "C84_mean_near_partial",
    "C84_not_beyond_partial"
   ],
   "note": "Refuted: three samples 0.1 have a mean above their maximum; the mean of two samples near the largest double is infinite. Proved for samples of size at most B (up to 2^900; at most 2^50 of them): within (n-1) B / 2^50 of the exact mean along every history, and a sample other than the mean does not pull the mean beyond itself. Missing: larger samples."
  },
  {
   "property": "C85",
   "status": "partial",
   "theorems": [
    "C85_spread_overflow_refuted",
    "C85_spread_nonneg_partial",
    "C85_spread_sample_partial",
    "C85_spread_merge_partial"
   ],
   "note": "Refuted: not a number after two samples near the largest double. Proved for samples up to 2^400 (at most 2^50 of them): finite, never negative, never smaller after a sample or a merge. The sign needs that the mean is a rounded quotient by the count: for other means of the same size the new mean can pass the sample. Missing: larger samples. How far the value is from the exact one is C91."
  },
  {
   "property": "C86",
   "status": "partial",
   "theorems": [
    "C86_delete_during_call_refuted",
    "C86_call_after_delete_refuted",
    "C86_safe_when_answered_partial",
    "C86_answered_once",
    "C86_every_call_answered",
    "C86_posted_once",
    "C86_headers_leak_refuted",
    "C86_memory_left_partial"
   ],
   "note": "Refuted: deleting the transport while a call is under way, or calling it afterwards, uses freed memory; and the header list of every call is never freed. Proved for every schedule: a user who deletes only after all answers is safe, each call is answered once with its own answer and posts its own request once, and nothing but the header lists is left."
  },
  {
   "property": "C87",
   "status": "partial",
   "theorems": [
    "C87_enabled_refuted",
    "C87_disabled_only_for_calls_partial",
    "C87_disabled_quiet_partial"
   ],
   "note": "Refuted for clients with a cache: all calls are done and yet the destructor sends what is cached. Proved for clients with both caches disabled, like that of the sample program: the transport is only called for a call that is not done."
  },
  {
   "property": "C88",
   "status": "proved",
   "theorems": [
    "C88_check_same_results",
    "C88_report_same_results",
    "C88_check_no_bad_pointer",
    "C88_report_no_bad_pointer",
    "C88_check_memory",
    "C88_report_memory",
    "C88_check_destroyed",
    "C88_report_destroyed",
    "C88_client"
   ],
   "note": "The check and report aggregators; the quota aggregator is C89. C88_*_same_results carries C38-C47 and C64-C67 over to the pointer level."
  },
  {
   "property": "C89",
   "status": "partial",
   "theorems": [
    "C89_same_results",
    "C89_deterministic",
    "C89_next_call",
    "C89_no_bad_pointer_partial",
    "C89_no_bad_pointer_refuted",
    "C89_memory",
    "C89_destroyed",
    "C89_client"
   ],
   "note": "Refuted for a call that finds the cache full of fresh entries: its recursion ends, when an entry becomes stale, with the use of the deleted entry (C89_no_bad_pointer_refuted; C52). C89_next_call and C89_no_bad_pointer_partial therefore assume room for what a call may insert; the theorems on results, memory and destruction hold for every history of calls that returned. C89_same_results carries C48-C53 over to the pointer level."
  },
  {
   "property": "C90",
   "status": "proved",
   "theorems": [
    "C90_check_from_server",
    "C90_quota_from_server",
    "C90_check_latest",
    "C90_quota_latest",
    "C90_errors"
   ],
   "note": "C90_check_from_server and C90_quota_from_server name the transport call and its completion, both before the answer; C90_check_latest and C90_quota_latest say that it is the latest answer recorded. Equality of signatures is not equality of requests (see C10-C12 for what a signature covers). The empty answer is what a Quota caller is given before the server has answered, or after a failure (C48, C58)."
  },
  {
   "property": "C91",
   "status": "partial",
   "theorems": [
    "C91_order_refuted",
    "C91_spread_near_partial",
    "C91_any_order_partial"
   ],
   "note": "Refuted: the value depends on the order of the samples 0.1, 0.1, 1. Proved for samples of size at most B (2^-500 to 2^400; at most 2^50 of them), along every history of additions and merges: within 512 z (1+z) B^2 of the exact value, with z = n^2/2^53; so two histories of the same samples agree up to twice that. Missing: larger samples (C85 refutes them), and a tighter error for more than about 2^26 samples."
  },
  {
   "property": "C92",
   "status": "partial",
   "theorems": [
    "C92_tokens_partial",
    "C92_granted_once",
    "C92_all_sent",
    "C92_shutdown_refuted"
   ],
   "note": "Refuted: destroying the client loses what was granted and not yet sent (C92_shutdown_refuted); charging twice is C51_charged_twice_refuted. Proved: the grants that the callers saw are exactly those of the cache, all that the cache hands out is sent once unless the client is destroyed while a quota call is under way, and the exact balance for each metric with the repeated, dropped and lost parts named; lost is empty if nothing leaves the cache and no answer with errors is stored. Every metric set is assumed to hold one int64 value (simple_quota)."
  },
  {
   "property": "C93",
   "status": "partial",
   "theorems": [
    "C93_checks_reported_partial",
    "C93_passed_once",
    "C93_all_sent"
   ],
   "note": "Proved: the operations that passed are exactly those that the cache answered, and with some that were sent for their own calls they are the groups that the sent, dropped and remaining requests merge; nothing remains after the FlushAll of the destructor if it is the last operation of the cache, and nothing is dropped if no operation of the cache is under way when the callback is removed. The last sentence is false (C42_sent_twice_refuted), hence partial."
  },
  {
   "property": "C94",
   "status": "partial",
   "theorems": [
    "C94_fresh_partial",
    "C94_age_refuted"
   ],
   "note": "Proved: less than the flush interval before the cache is asked, either the answer given was recorded or another check of the same signature was told NOT_FOUND and so is for the server to answer. In the second case the answer itself may be older than the flush interval, and than the expiration time: C94_age_refuted."
  },
  {
   "property": "C95",
   "status": "proved",
   "theorems": [
    "C95_quota_fresh",
    "C95_told_fresh"
   ],
   "note": "Proved for the aggregator and for the callers of the client, for histories in which requests of equal signature are about the same method, consumer and metrics (C10). A request that was handed out is given to the flush callback unless the destructor has removed it."
  },
  {
   "property": "C96",
   "status": "proved",
   "theorems": [
    "C96_reports_in_time"
   ],
   "note": "Proved at every moment at which nothing is running and the last call of the report cache was a flush or an accepted report; the callback must not have been removed while a call was under way (as in C74)."
  },
  {
   "property": "C97",
   "status": "proved",
   "theorems": [
    "C97_range",
    "C97_container",
    "C97_no_leak"
   ],
   "note": "The helpers for ranges and containers, for every heap; destructors of the objects are taken to touch no other object. No file of the library includes these helpers: they are for its users."
  },
  {
   "property": "C98",
   "status": "proved",
   "theorems": [
    "C98_map",
    "C98_lookup",
    "C98_null"
   ],
   "note": "Histories that start with an empty map. C98_null also shows that LookupOrInsertNew keeps a NULL pointer that a map filled in another way has."
  },
  {
   "property": "C99",
   "status": "partial",
   "theorems": [
    "C99_age_partial",
    "C99_long_idle_refuted"
   ],
   "note": "The answer in every reachable state. The full claim is false of the code: kSecToUsec * (Now() - last_use_) overflows int64_t for an entry that was last used more than 9223372036854 microseconds (about 106 days) ago (C99_long_idle_refuted)."
  }
 ]
}