{"id": "C01", "title": "Money validation accepts exactly the well-formed amounts", "statement": "ValidateMoney returns OK exactly when the currency code has three bytes, |nanos| <= 999999999, and units and nanos do not have opposite signs; otherwise INVALID_ARGUMENT.", "quantifier": "every Money message (every currency string, every int64 units, every int32 nanos)", "why_tests_cant": "the input space is 2^96 amounts times all strings; tests sample about ten", "anchors": ["src/money_utils.cc:ValidateMoney"]}
{"id": "C02", "title": "Adding two valid amounts of one currency is exact whenever the sum is representable", "statement": "If a and b are valid, share a currency and a+b (as exact nano-amount) is a representable Money, TryAddMoney returns OK and the sum denotes exactly a+b. OUT_OF_RANGE is only returned when the exact sum is not representable.", "quantifier": "every pair of valid Money messages with equal currency", "why_tests_cant": "a wrong overflow test shows only on particular sign/magnitude combinations", "anchors": ["src/money_utils.cc:TryAddMoney", "src/money_utils.cc:SaturatedAddMoney"]}
{"id": "C03", "title": "Overflowing additions saturate to the representable extreme of the right sign", "statement": "If a and b are valid, share a currency and their exact sum exceeds the representable range, the status is OUT_OF_RANGE and the result is the largest (resp. smallest) Money; SaturatedAddMoney returns the same value.", "quantifier": "every pair of valid Money messages with equal currency whose exact sum is out of range", "why_tests_cant": "boundary pairs are 2^64-sized sets near the extremes", "anchors": ["src/money_utils.cc:TryAddMoney", "src/money_utils.cc:SaturatedAddMoney"]}
{"id": "C04", "title": "Money addition never executes undefined behaviour", "statement": "TryAddMoney and SaturatedAddMoney on valid amounts never perform an arithmetic operation that is undefined in C++ (signed overflow).", "quantifier": "every pair of valid Money messages", "why_tests_cant": "UB has no observable test outcome on the compilers used", "anchors": ["src/money_utils.cc:TryAddMoney"]}
{"id": "C05", "title": "Money addition rejects mixed currencies without leaking a sum", "statement": "For amounts with different currency codes TryAddMoney returns INVALID_ARGUMENT and the output message is left cleared.", "quantifier": "every pair of Money messages with different currency codes", "why_tests_cant": "all pairs of strings", "anchors": ["src/money_utils.cc:TryAddMoney"]}
{"id": "C06", "title": "Money addition is commutative and closed over valid amounts", "statement": "For valid a, b of the same currency, adding a to b and b to a give the same status and the same result, and the result is again a valid amount of that currency.", "quantifier": "every pair of valid Money messages with equal currency", "why_tests_cant": "relational property over all pairs", "anchors": ["src/money_utils.cc:TryAddMoney"]}
{"id": "C07", "title": "Signatures do not depend on map iteration order", "statement": "Two requests/operations/metric values whose label maps hold the same entries get the same signature whatever order the label map is iterated in; for allocate-quota requests the order and multiplicity of metric names is irrelevant too; for check requests with distinct metric names the order of the metric sets is irrelevant.", "quantifier": "every label map and every iteration order of it; every permutation of metric sets", "why_tests_cant": "hash iteration orders differ across processes and cannot be enumerated by tests", "anchors": ["src/signature.cc:UpdateHashLabels", "src/signature.cc:GenerateCheckRequestSignature", "src/signature.cc:GenerateAllocateQuotaRequestSignature"]}
{"id": "C08", "title": "Report operations share a signature only when consumer, operation name and labels agree", "statement": "If two operations with NUL-free strings get equal report-operation signatures, then consumer id, operation name and label map are equal, or the two hashed byte strings are an MD5 collision.", "quantifier": "every pair of operations with NUL-free names and labels", "why_tests_cant": "injectivity over all pairs of inputs", "anchors": ["src/signature.cc:GenerateReportOperationSignature"]}
{"id": "C09", "title": "Metric values share a signature only when their labels agree", "statement": "If two metric values with NUL-free label strings get equal signatures, their label maps are equal or the hashed byte strings are an MD5 collision.", "quantifier": "every pair of metric values with NUL-free labels", "why_tests_cant": "injectivity over all pairs of inputs", "anchors": ["src/signature.cc:GenerateReportMetricValueSignature"]}
{"id": "C10", "title": "Allocate-quota requests share a signature only when method, consumer and metric-name set agree", "statement": "If two allocate-quota requests with NUL-free strings get equal signatures, they have the same method name, consumer id and set of metric names, or the hashed byte strings are an MD5 collision.", "quantifier": "every pair of allocate-quota requests with NUL-free strings", "why_tests_cant": "injectivity over all pairs of inputs", "anchors": ["src/signature.cc:GenerateAllocateQuotaRequestSignature"]}
{"id": "C11", "title": "Check requests share a signature only when they ask the same question", "statement": "If two check requests with NUL-free strings get equal signatures, they agree on operation name, consumer id, labels, metric names and metric labels, or the hashed byte strings are an MD5 collision.", "quantifier": "every pair of check requests with NUL-free strings", "why_tests_cant": "injectivity over all pairs of inputs", "anchors": ["src/signature.cc:GenerateCheckRequestSignature"]}
{"id": "C12", "title": "Signatures ignore ids, times, values and importance", "statement": "Changing the operation id, timestamps, importance, log entries, metric values/timestamps or the service config id of a request never changes its check, report, metric or quota signature (so such requests aggregate).", "quantifier": "every request and every replacement value of those fields", "why_tests_cant": "all pairs of messages that differ in those fields only", "anchors": ["src/signature.cc:GenerateCheckRequestSignature", "src/signature.cc:GenerateReportOperationSignature"]}
{"id": "C13", "title": "Aggregating operations conserves int64 DELTA totals", "statement": "After merging any sequence of operations, for each metric name and label set that always carries int64 DELTA values, the emitted operation holds exactly one value for it and that value is the sum of all merged values (provided partial sums fit int64).", "quantifier": "every first operation and every finite sequence of merged operations", "why_tests_cant": "unbounded histories", "anchors": ["src/operation_aggregator.cc:MergeMetricValueSets", "src/operation_aggregator.cc:MergeDeltaMetricValue", "src/operation_aggregator.cc:ToOperationProto"]}
{"id": "C14", "title": "Aggregated time spans cover exactly the merged operations", "statement": "The emitted operation's start time is the earliest and its end time the latest of those present in the merged operations; for DELTA metrics each emitted value's interval is the hull of the merged values' intervals.", "quantifier": "every finite sequence of merged operations, including ones with missing timestamps", "why_tests_cant": "unbounded histories", "anchors": ["src/operation_aggregator.cc:MergeOperation", "src/operation_aggregator.cc:MergeDeltaMetricValue"]}
{"id": "C15", "title": "GAUGE and CUMULATIVE metrics keep the value with the latest end time", "statement": "For a metric name registered as non-DELTA, the emitted value for a label set is one of the merged values, no merged value of that label set has a later end time, and among ties the most recently merged wins.", "quantifier": "every metric kind map and every finite sequence of merged operations", "why_tests_cant": "unbounded histories", "anchors": ["src/operation_aggregator.cc:MergeCumulativeOrGaugeMetricValue", "src/operation_aggregator.cc:MergeMetricValue"]}
{"id": "C16", "title": "Log entries survive aggregation in order", "statement": "The emitted operation's log entries are the concatenation of the log entries of the merged operations in merge order: none lost, duplicated or reordered.", "quantifier": "every finite sequence of merged operations", "why_tests_cant": "unbounded histories", "anchors": ["src/operation_aggregator.cc:MergeLogEntries", "src/operation_aggregator.cc:ToOperationProto"]}
{"id": "C17", "title": "Aggregation emits each metric name once and each label set once", "statement": "The emitted operation contains exactly the metric names that occurred in the merged operations, each in one metric value set, and within a set exactly one value per label set that occurred for that name.", "quantifier": "every finite sequence of merged operations and every hash iteration order", "why_tests_cant": "unbounded histories and hash orders", "anchors": ["src/operation_aggregator.cc:MergeMetricValueSets", "src/operation_aggregator.cc:ToOperationProto"]}
{"id": "C18", "title": "Aggregation keeps the identity of the first operation", "statement": "Operation id, operation name, consumer id, labels and importance of the emitted operation are those of the first operation, whatever is merged later.", "quantifier": "every finite sequence of merged operations", "why_tests_cant": "unbounded histories", "anchors": ["src/operation_aggregator.cc:OperationAggregator", "src/operation_aggregator.cc:ToOperationProto"]}
{"id": "C19", "title": "No metric data is silently dropped by aggregation", "statement": "Every metric value handed to the report aggregation contributes to the emitted operation (values of incompatible types or bucket layouts are not silently discarded).", "quantifier": "every finite sequence of merged operations", "why_tests_cant": "depends on combinations of value types over histories", "anchors": ["src/operation_aggregator.cc:MergeDeltaMetricValue", "src/operation_aggregator.cc:MergeMetricValueSets"]}
{"id": "C20", "title": "Aggregated totals do not depend on merge order", "statement": "Merging the same operations in a different order gives the same int64 DELTA totals, the same set of metric names and label sets and the same time span.", "quantifier": "every permutation of every finite sequence of operations", "why_tests_cant": "factorially many orders", "anchors": ["src/operation_aggregator.cc:MergeOperation"]}
{"id": "C21", "title": "Aggregating quota operations adds up the requested tokens per metric", "statement": "After merging any sequence of allocate operations carrying one int64 value per metric, the emitted operation has one entry per metric name holding the sum of the requested amounts, and keeps method, consumer and id of the first.", "quantifier": "every finite sequence of allocate operations with one int64 value per metric", "why_tests_cant": "unbounded histories", "anchors": ["src/quota_operation_aggregator.cc:MergeOperation", "src/quota_operation_aggregator.cc:ToOperationProto"]}
{"id": "C22", "title": "Quota aggregation is safe on arbitrary request messages", "statement": "Merging any syntactically valid allocate operation never executes undefined behaviour.", "quantifier": "every allocate operation, including metric sets with no values", "why_tests_cant": "malformed messages are not tested", "anchors": ["src/quota_operation_aggregator.cc:MergeOperation"]}
{"id": "C23", "title": "Distribution bucket counts always sum to the sample count", "statement": "After successful initialisation and any sequence of successful sample additions and merges, the bucket counts are non-negative, their sum equals count, and there are exactly num_finite_buckets+2 (or bounds+1) buckets.", "quantifier": "every bucket layout and every finite sequence of samples and merges (int64 range permitting)", "why_tests_cant": "unbounded histories", "anchors": ["utils/distribution_helper.cc:AddSample", "utils/distribution_helper.cc:Merge", "utils/distribution_helper.cc:InitExplicit"]}
{"id": "C24", "title": "Explicit buckets classify every sample into the unique bucket that contains it", "statement": "With strictly increasing bounds b0<..<bn, a sample v increments exactly one bucket: the underflow bucket iff v<b0, the overflow bucket iff v>=bn, otherwise the bucket i with b(i-1)<=v<b(i).", "quantifier": "every non-empty strictly increasing bound list and every non-NaN sample", "why_tests_cant": "all floating-point inputs", "anchors": ["utils/distribution_helper.cc:UpdateExplicitBucketCount"]}
{"id": "C25", "title": "Adding a sample never indexes outside the bucket array or executes undefined behaviour", "statement": "For every distribution accepted by an Init function and every double sample, AddSample performs no out-of-range access and no undefined float-to-int conversion.", "quantifier": "every accepted layout and every double, including NaN and infinities", "why_tests_cant": "all floating-point inputs", "anchors": ["utils/distribution_helper.cc:AddSample", "utils/distribution_helper.cc:UpdateExponentialBucketCount", "utils/distribution_helper.cc:UpdateLinearBucketCount", "utils/distribution_helper.cc:UpdateExplicitBucketCount"]}
{"id": "C26", "title": "Distribution minimum and maximum are the true extremes of the samples", "statement": "After adding samples (none NaN), minimum is the least and maximum the greatest sample added; merging takes the min of minima and the max of maxima.", "quantifier": "every finite sequence of non-NaN samples and merges", "why_tests_cant": "unbounded histories", "anchors": ["utils/distribution_helper.cc:UpdateGeneralStatictics", "utils/distribution_helper.cc:Merge"]}
{"id": "C27", "title": "Merging distributions adds counts bucketwise or changes nothing", "statement": "Merge either fails with INVALID_ARGUMENT leaving the target unchanged, or succeeds and every bucket count and the total count are the sums of both inputs; merging an empty source changes nothing and merging into an empty target copies.", "quantifier": "every pair of distributions", "why_tests_cant": "all pairs of layouts", "anchors": ["utils/distribution_helper.cc:Merge", "utils/distribution_helper.cc:BucketsApproximatelyEqual"]}
{"id": "C28", "title": "Mean and sum of squared deviations are those of the samples", "statement": "Up to floating-point rounding (i.e. in exact arithmetic) mean and sum_of_squared_deviation equal the mean and the sum of squared deviations of all samples added or merged.", "quantifier": "every finite sequence of samples and merges", "why_tests_cant": "unbounded histories", "anchors": ["utils/distribution_helper.cc:UpdateGeneralStatictics", "utils/distribution_helper.cc:Merge"]}
{"id": "C29", "title": "Init functions reject every meaningless bucket layout", "statement": "InitExponential accepts exactly num>=1, growth>1, scale>0; InitLinear exactly num>=1, width>0; InitExplicit exactly non-empty strictly increasing bounds; everything else gives INVALID_ARGUMENT.", "quantifier": "every argument combination, including NaN and empty lists", "why_tests_cant": "all floating-point inputs", "anchors": ["utils/distribution_helper.cc:InitExponential", "utils/distribution_helper.cc:InitLinear", "utils/distribution_helper.cc:InitExplicit"]}
{"id": "C30", "title": "The cache's bookkeeping stays consistent under every sequence of operations", "statement": "After any sequence of insert/lookup/release/remove/expire/clear operations used according to the documented protocol no assertion can fire, the size reported equals the total size of the elements not yet destroyed, and pinned-size, entry and deferred counts agree with the outstanding pins.", "quantifier": "every finite sequence of cache operations, keys, sizes and clock readings", "why_tests_cant": "unbounded histories with aliasing", "anchors": ["utils/simple_lru_cache_inl.h:SimpleLRUCacheBase"]}
{"id": "C31", "title": "Every inserted value is destroyed exactly once and never while in use", "statement": "A value handed to the cache is passed to the deleter at most once, never while a lookup of it is unreleased, and exactly once after it has left the cache and been released; after Clear nothing is leaked.", "quantifier": "every finite sequence of cache operations", "why_tests_cant": "unbounded histories with aliasing", "anchors": ["utils/simple_lru_cache_inl.h:Discard", "utils/simple_lru_cache_inl.h:ReleaseWithOptions", "utils/simple_lru_cache_inl.h:Remove", "utils/simple_lru_cache_inl.h:Clear"]}
{"id": "C32", "title": "A lookup returns the most recently inserted live value for the key", "statement": "Lookup(k) returns either nothing or the value of the latest Insert(k), and returns it whenever that entry has not been removed, evicted or expired since.", "quantifier": "every finite sequence of cache operations", "why_tests_cant": "unbounded histories", "anchors": ["utils/simple_lru_cache_inl.h:LookupWithOptions", "utils/simple_lru_cache_inl.h:InsertPinned"]}
{"id": "C33", "title": "The cache respects its size bound", "statement": "After every operation the total size is at most the maximum unless every cached entry is in use (pinned).", "quantifier": "every finite sequence of cache operations", "why_tests_cant": "unbounded histories", "anchors": ["utils/simple_lru_cache_inl.h:GarbageCollect", "utils/simple_lru_cache_inl.h:ReleaseWithOptions"]}
{"id": "C34", "title": "Eviction removes least-recently-used entries first", "statement": "When an insert overflows the cache, the entries evicted are a suffix of the recency order: every surviving unpinned entry was used more recently than every evicted one, and no more is evicted than needed.", "quantifier": "every finite sequence of cache operations", "why_tests_cant": "unbounded histories", "anchors": ["utils/simple_lru_cache_inl.h:GarbageCollect"]}
{"id": "C35", "title": "Idle/age expiry removes exactly the overdue entries", "statement": "With a non-decreasing clock, removing expired entries at time t destroys every entry not in use whose last use (or insertion, in age mode) is more than the limit before t, in age mode also detaches the overdue entries in use, and touches no other entry.", "quantifier": "every finite sequence of cache operations and every non-decreasing clock", "why_tests_cant": "unbounded histories and clock readings", "anchors": ["utils/simple_lru_cache_inl.h:DiscardIdle"]}
{"id": "C36", "title": "Millisecond timeouts are converted to clock cycles accurately", "statement": "A timeout of m milliseconds (any int) configured through the aggregation options is enforced as 1000*m microseconds up to one microsecond.", "quantifier": "every int millisecond value", "why_tests_cant": "2^31 values through two roundings", "anchors": ["utils/simple_lru_cache_inl.h:SetTimeout", "src/check_aggregator_impl.cc:CheckAggregatorImpl"]}
{"id": "C37", "title": "Doubly linked list surgery implements the recency list", "statement": "Linking an entry puts it at the most-recent end, unlinking removes exactly that entry, all other entries keep their order, and both pointer directions stay consistent.", "quantifier": "every finite sequence of link/unlink operations", "why_tests_cant": "unbounded histories with aliasing", "anchors": ["utils/simple_lru_cache_inl.h:Elem::Link", "utils/simple_lru_cache_inl.h:Elem::Unlink"]}
{"id": "C38", "title": "Check calls that must reach the server are never answered from the cache", "statement": "CheckAggregator::Check returns INVALID_ARGUMENT for a foreign service name or a missing operation, and NOT_FOUND for every non-LOW importance operation or when caching is disabled; in these cases nothing is cached, aggregated or flushed.", "quantifier": "every request in every reachable state", "why_tests_cant": "all states", "anchors": ["src/check_aggregator_impl.cc:Check"]}
{"id": "C39", "title": "A cached check answer is the latest answer stored for that signature", "statement": "Whenever Check returns OK, the response equals the response of the most recent CacheResponse call for a request with the same signature.", "quantifier": "every history of aggregator calls", "why_tests_cant": "unbounded histories", "anchors": ["src/check_aggregator_impl.cc:Check", "src/check_aggregator_impl.cc:CacheResponse"]}
{"id": "C40", "title": "A cached check answer is refreshed at most once per flush interval", "statement": "While an entry stays cached, two Check calls with its signature that both return NOT_FOUND are at least one flush interval apart, and so are a CacheResponse and the next NOT_FOUND.", "quantifier": "every history of aggregator calls and every clock", "why_tests_cant": "unbounded histories and schedules", "anchors": ["src/check_aggregator_impl.cc:Check", "src/check_aggregator_impl.cc:ShouldFlush"]}
{"id": "C41", "title": "A cached check answer is never served beyond its expiration", "statement": "Check never returns a response cached more than expiration_ms ago.", "quantifier": "every history of aggregator calls and every clock", "why_tests_cant": "unbounded histories and clock readings", "anchors": ["src/check_aggregator_impl.cc:Check", "include/aggregation_options.h:CheckAggregationOptions"]}
{"id": "C42", "title": "Check requests answered from the cache are reported to the server exactly once", "statement": "Each check operation answered OK from a positive cached response is merged into exactly one later flushed check request or is still pending in the cache; after FlushAll nothing is pending. Operations for which the caller was told NOT_FOUND are not sent again by the aggregator.", "quantifier": "every history of aggregator calls", "why_tests_cant": "unbounded histories", "anchors": ["src/check_aggregator_impl.cc:Check", "src/check_aggregator_impl.cc:OnCacheEntryDelete", "src/check_aggregator_impl.cc:FlushAll"]}
{"id": "C43", "title": "Accepted report operations are flushed exactly once", "statement": "For every history, the operations accepted with OK are partitioned into groups with equal signature, each group merged in arrival order into exactly one emitted or still pending operation; after FlushAll nothing is pending.", "quantifier": "every history of report/flush calls, every capacity and every clock", "why_tests_cant": "unbounded histories", "anchors": ["src/report_aggregator_impl.cc:Report", "src/report_aggregator_impl.cc:OnCacheEntryDelete", "src/report_aggregator_impl.cc:FlushAll"]}
{"id": "C44", "title": "Flushed report requests are bounded and correctly addressed", "statement": "Every flushed report request carries the configured service name and config id and between 1 and 10 operations.", "quantifier": "every history of report/flush calls", "why_tests_cant": "unbounded histories", "anchors": ["src/report_aggregator_impl.cc:MergeItem", "src/report_aggregator_impl.cc:OnCacheEntryDelete"]}
{"id": "C45", "title": "Important reports bypass aggregation entirely", "statement": "A report request containing any operation of non-LOW importance (or any request when caching is disabled) gets NOT_FOUND and none of its operations is cached; a foreign service name gets INVALID_ARGUMENT.", "quantifier": "every request in every reachable state", "why_tests_cant": "all states", "anchors": ["src/report_aggregator_impl.cc:Report"]}
{"id": "C46", "title": "A report operation is flushed within the flush interval of being cached", "statement": "With a non-decreasing clock, after Flush() (or any Report call) completes no pending operation was first cached more than flush_interval_ms before that call.", "quantifier": "every history and every non-decreasing clock", "why_tests_cant": "unbounded histories", "anchors": ["src/report_aggregator_impl.cc:Flush"]}
{"id": "C47", "title": "Pending report operations stay bounded in number and log entries", "statement": "At most num_entries aggregated report operations are pending. One that merges several operations has fewer than 100 log entries; a flushed one had fewer than 100 before its last merge unless that merge was its second operation. So if no accepted operation has more than n log entries, every flushed one has fewer than 100 + n, or at most 2 n. (The bound 100 + n alone is false: the limit is looked at only after a merge.)", "quantifier": "every history of report calls", "why_tests_cant": "unbounded histories of merges", "anchors": ["src/report_aggregator_impl.cc:Report", "src/operation_aggregator.cc:TooBig"]}
{"id": "C48", "title": "The first quota request for a key is sent once and answered positively", "statement": "With caching enabled Quota() returns OK for every well-addressed request; for a signature not in the cache the answer is positive and exactly this request is handed to the flush callback.", "quantifier": "every reachable state in which the call terminates", "why_tests_cant": "all states", "anchors": ["src/quota_aggregator_impl.cc:Quota"]}
{"id": "C49", "title": "At most one quota refresh is outstanding per cached key", "statement": "While a key stays cached, between a refresh being handed to the flush callback and the next CacheResponse for that signature no further refresh of the key is handed out.", "quantifier": "every history of quota/flush/response calls", "why_tests_cant": "unbounded histories and schedules", "anchors": ["src/quota_aggregator_impl.cc:Quota", "src/quota_aggregator_impl.cc:OnCacheEntryDelete"]}
{"id": "C50", "title": "Cached quota denials are enforced", "statement": "After a response with errors is cached, every Quota call for that signature returns that response until a later response is cached or the entry leaves the cache; a refresh of a denied key is sent in NORMAL mode.", "quantifier": "every history of quota/flush/response calls", "why_tests_cant": "unbounded histories", "anchors": ["src/quota_aggregator_impl.cc:Quota", "src/quota_aggregator_impl.cc:CacheResponse"]}
{"id": "C51", "title": "Quota tokens reported to the server equal tokens granted", "statement": "For each metric the amount in requests handed to the flush callback plus the amount still pending equals the amount in requests answered positively (nothing lost, nothing charged twice).", "quantifier": "every history of quota/flush/response calls", "why_tests_cant": "unbounded histories", "anchors": ["src/quota_aggregator_impl.cc:Quota", "src/quota_aggregator_impl.cc:FlushAll", "src/quota_aggregator_impl.cc:OnCacheEntryDelete"]}
{"id": "C52", "title": "Quota calls always terminate", "statement": "Quota(), CacheResponse(), Flush() and FlushAll() return for every history, including when more distinct keys than cache entries are used.", "quantifier": "every history and capacity", "why_tests_cant": "the divergence needs more live keys than entries", "anchors": ["src/quota_aggregator_impl.cc:OnCacheEntryDelete", "src/quota_aggregator_impl.cc:Quota"]}
{"id": "C53", "title": "Stale quota entries are dropped after the expiration interval", "statement": "With a non-decreasing clock, after Flush() at time t no entry remains whose last refresh is expiration_interval or more before t and whose insertion is older than the refresh interval; entries younger than that stay.", "quantifier": "every history and every non-decreasing clock", "why_tests_cant": "unbounded histories", "anchors": ["src/quota_aggregator_impl.cc:ShouldDrop", "src/quota_aggregator_impl.cc:Flush"]}
{"id": "C54", "title": "Flushed items are delivered exactly once, by the call that removed them, outside the cache lock", "statement": "Under any interleaving of aggregator calls, each item removed by a call is handed to the flush callback exactly once, in removal order, by the same thread after it has released the cache lock and before the call returns.", "quantifier": "every number of threads and every interleaving", "why_tests_cant": "schedules cannot be enumerated", "anchors": ["src/cache_removed_items_handler.h:StackBuffer", "src/cache_removed_items_handler.h:Swapper", "src/cache_removed_items_handler.h:FlushOut"]}
{"id": "C55", "title": "Each client call completes exactly once", "statement": "For every Check/Quota/Report call the user's done callback is invoked exactly once provided the transport invokes each of its callbacks exactly once; cached answers and errors complete before the call returns.", "quantifier": "every request, aggregator answer, transport timing and interleaving", "why_tests_cant": "schedules cannot be enumerated", "anchors": ["src/service_control_client_impl.cc:Check", "src/service_control_client_impl.cc:Quota", "src/service_control_client_impl.cc:Report"]}
{"id": "C56", "title": "Statistics count calls and transport requests exactly", "statement": "When no call is in progress, total_called_* equals the number of calls, send_*_in_flight plus send_*_by_flush equals the number of transport invocations of that kind, and send_report_operations equals the operations handed to the report transport.", "quantifier": "every interleaving of client calls", "why_tests_cant": "schedules cannot be enumerated", "anchors": ["src/service_control_client_impl.cc:GetStatistics", "src/service_control_client_impl.cc:Check", "src/service_control_client_impl.cc:ReportFlushCallback"]}
{"id": "C57", "title": "A call is forwarded to the server exactly when the aggregator cannot answer", "statement": "Check/Quota/Report invoke the supplied transport with the caller's own request exactly when the aggregator returns NOT_FOUND; a missing transport gives INVALID_ARGUMENT without any effect on the caches.", "quantifier": "every request and state", "why_tests_cant": "all states", "anchors": ["src/service_control_client_impl.cc:Check", "src/service_control_client_impl.cc:Quota", "src/service_control_client_impl.cc:Report"]}
{"id": "C58", "title": "Transport failures never enter the caches", "statement": "A check response is cached only when the transport reported OK; a failed quota refresh is replaced by an empty positive (fail-open) response.", "quantifier": "every transport outcome", "why_tests_cant": "all outcomes in all states", "anchors": ["src/service_control_client_impl.cc:Check", "src/service_control_client_impl.cc:AllocateQuotaFlushCallback", "src/service_control_client_impl.cc:Quota"]}
{"id": "C59", "title": "Client calls never deadlock", "statement": "With any transport that completes in place, later, or on another thread, every thread inside a client call can eventually make progress.", "quantifier": "every schedule and transport behaviour", "why_tests_cant": "schedules cannot be enumerated", "anchors": ["src/service_control_client_impl.cc:AllocateQuotaFlushCallback", "src/cache_removed_items_handler.h:FlushOut"]}
{"id": "C60", "title": "Late transport completions are safe after the client is destroyed", "statement": "A transport callback invoked after the client object has been destroyed does not access the destroyed object.", "quantifier": "every order of completion and destruction", "why_tests_cant": "needs a race between completion and destruction", "anchors": ["src/service_control_client_impl.cc:Check", "src/service_control_client_impl.cc:AllocateQuotaFlushCallback"]}
{"id": "C61", "title": "Destroying the client loses no cached report", "statement": "When the client is destroyed, every pending report operation is handed to the report transport before the destructor returns, and no flush callback runs afterwards.", "quantifier": "every history before destruction", "why_tests_cant": "unbounded histories", "anchors": ["src/service_control_client_impl.cc:~ServiceControlClientImpl"]}
{"id": "C62", "title": "The periodic flush runs often enough for every enabled cache", "statement": "If a periodic timer is supplied, it is started with a positive interval not longer than any enabled cache's flush requirement.", "quantifier": "every combination of options", "why_tests_cant": "all option combinations", "anchors": ["src/service_control_client_impl.cc:GetNextFlushInterval", "src/service_control_client_impl.cc:ServiceControlClientImpl"]}
{"id": "C63", "title": "Check options always keep expiration above the flush interval", "statement": "Check options built from any arguments satisfy expiration_ms >= flush_interval_ms + 1.", "quantifier": "every pair of int arguments", "why_tests_cant": "2^64 pairs incl. the overflow corner", "anchors": ["include/aggregation_options.h:CheckAggregationOptions"]}
{"id": "C64", "title": "Check aggregator calls always complete", "statement": "For every option values and every history, construction, Check, CacheResponse, Flush, FlushAll and destruction return without tripping an assertion, hanging or using a deleted entry; the only exception is a check whose metrics overflow when merged with those of earlier checks.", "quantifier": "every history of aggregator calls and every clock", "why_tests_cant": "unbounded histories over the cache's pin counts, lists and expiry", "anchors": ["src/check_aggregator_impl.cc:Check", "src/check_aggregator_impl.cc:CacheResponse", "src/check_aggregator_impl.cc:FlushAll", "src/check_aggregator_impl.cc:~CheckAggregatorImpl"]}
{"id": "C65", "title": "A cached check answer leaves the cache only for a reason, and overdue ones do leave", "statement": "An answer enters the cache exactly by CacheResponse, and leaves it only by FlushAll, by not being used for longer than expiration_ms, or as the least recently used one when another answer is stored in a full cache; every call that looks at the cache removes what is overdue; at most num_entries signatures are cached.", "quantifier": "every history of aggregator calls and every clock", "why_tests_cant": "unbounded histories and eviction orders", "anchors": ["src/check_aggregator_impl.cc:CacheResponse", "src/check_aggregator_impl.cc:Flush"]}
{"id": "C66", "title": "Report aggregator calls always complete", "statement": "For every option values and every history, construction, Report, Flush, FlushAll and destruction return without tripping an assertion, hanging or using a deleted entry; the only exception is a report whose metrics overflow when merged with those of earlier reports.", "quantifier": "every history of aggregator calls and every clock", "why_tests_cant": "unbounded histories over the cache's pin counts, lists and expiry", "anchors": ["src/report_aggregator_impl.cc:Report", "src/report_aggregator_impl.cc:FlushAll", "src/report_aggregator_impl.cc:~ReportAggregatorImpl"]}
{"id": "C67", "title": "Report operations are not flushed early", "statement": "As long as the signatures of the accepted operations fit into num_entries, a call other than FlushAll hands an aggregated operation to the flush callback only when it has at least 100 log entries or its first operation was accepted longer than flush_interval_ms ago.", "quantifier": "every history of aggregator calls and every clock", "why_tests_cant": "unbounded histories and clocks", "anchors": ["src/report_aggregator_impl.cc:Report", "src/report_aggregator_impl.cc:Flush", "src/report_aggregator_impl.cc:OnCacheEntryDelete"]}
{"id": "C68", "title": "A client without default transports is safe to use with per-call transports", "statement": "The header says that a default transport is used if none is provided: so calls with their own transport, flushes and destruction never terminate the program, whichever default transports were supplied.", "quantifier": "every options value, history and schedule", "why_tests_cant": "needs a history in which an item is flushed whose kind has no default transport", "anchors": ["src/service_control_client_impl.cc:ReportFlushCallback", "src/service_control_client_impl.cc:CheckFlushCallback", "include/service_control_client.h:ServiceControlClientOptions"]}
{"id": "C69", "title": "User callbacks and transports run without the client's locks", "statement": "A done callback, and the transport of a user's call, run while their thread holds none of the client's mutexes; the transport of a flushed item runs while its thread holds the flush mutex of that aggregator only.", "quantifier": "every schedule", "why_tests_cant": "schedules cannot be enumerated", "anchors": ["src/service_control_client_impl.cc:Check", "src/service_control_client_impl.cc:Quota", "src/cache_removed_items_handler.h:FlushOut"]}
{"id": "C70", "title": "Concurrent use of a cache is equivalent to sequential use", "statement": "Under every interleaving the calls of each aggregator take effect one after the other, in an order that respects the real-time order of the calls, so every property of sequences of aggregator calls also holds of a client used by many threads.", "quantifier": "every number of threads and every interleaving", "why_tests_cant": "schedules cannot be enumerated", "anchors": ["src/check_aggregator_impl.cc:Check", "src/quota_aggregator_impl.cc:Quota", "src/report_aggregator_impl.cc:Report", "src/service_control_client_impl.cc:Check"]}
{"id": "C71", "title": "The server's answer is cached before the user is told", "statement": "When the done callback of a call that went to the server runs, the answer has already been given to the cache (for a check, if it is OK; for quota, always), so a call made in the callback finds it there.", "quantifier": "every schedule and transport behaviour", "why_tests_cant": "schedules cannot be enumerated", "anchors": ["src/service_control_client_impl.cc:Check", "src/service_control_client_impl.cc:Quota"]}
{"id": "C72", "title": "Without a supplied timer the library makes its own", "statement": "The header says that the library creates a thread based periodic timer if none is provided: so expired items are flushed by time also then.", "quantifier": "every options value and history", "why_tests_cant": "a promise about all histories", "anchors": ["include/service_control_client.h:ServiceControlClientOptions", "src/service_control_client_impl.cc:ServiceControlClientImpl"]}
{"id": "C73", "title": "Every cache operation of the client has exactly one cause", "statement": "Under every interleaving, each user call with a transport consults its cache once, each timer tick flushes each of the three caches once, destruction flushes everything once, and each server answer that is to be remembered (OK checks of user calls, all quota answers) is recorded once; nothing else touches the caches.", "quantifier": "every number of threads, interleaving and transport behaviour", "why_tests_cant": "schedules cannot be enumerated", "anchors": ["src/service_control_client_impl.cc:Check", "src/service_control_client_impl.cc:Quota", "src/service_control_client_impl.cc:Report", "src/service_control_client_impl.cc:Flush", "src/service_control_client_impl.cc:FlushAll", "src/service_control_client_impl.cc:AllocateQuotaFlushCallback"]}
{"id": "C74", "title": "Reports are conserved from the user's call to the server", "statement": "Whenever no thread is inside the client, each request the user made was answered by its cache or sent to the server exactly once as it is; once the client is destroyed (with no report call of another thread under way), each report was sent as it is, refused with a status the user was told, or merged with others of equal signature into exactly one operation that was sent.", "quantifier": "every number of threads, interleaving and history", "why_tests_cant": "schedules and histories cannot be enumerated", "anchors": ["src/service_control_client_impl.cc:Report", "src/service_control_client_impl.cc:ReportFlushCallback", "src/service_control_client_impl.cc:~ServiceControlClientImpl", "src/report_aggregator_impl.cc:Report", "src/report_aggregator_impl.cc:FlushAll"]}
{"id": "C75", "title": "Lookups that should leave the eviction order alone do, and do no harm", "statement": "A lookup whose options say not to update the eviction order, released with the same options (as ScopedLookup does by itself), changes neither the last-use times nor the order of eviction; the cache works as before while such lookups are open, alone or together with ordinary ones, and afterwards.", "quantifier": "every history of cache calls, every set of overlapping lookups and every clock", "why_tests_cant": "unbounded histories and overlaps", "anchors": ["utils/simple_lru_cache_inl.h:SimpleLRUCacheOptions", "utils/simple_lru_cache_inl.h:ScopedLookup", "utils/simple_lru_cache_inl.h:LookupWithOptions", "utils/simple_lru_cache_inl.h:ReleaseWithOptions"]}
{"id": "C76", "title": "Iterating over a cache visits exactly what it holds", "statement": "From begin() to end() the iterator stops once at each entry a lookup could find, with the value a lookup would return and the last-use time GetLastUseTime reports, and at nothing else (not at values that have left the cache but are still in use).", "quantifier": "every history of cache calls, every clock and every hash order", "why_tests_cant": "unbounded histories and unspecified hash order", "anchors": ["utils/simple_lru_cache_inl.h:SimpleLRUCacheConstIterator", "utils/simple_lru_cache_inl.h:begin", "utils/simple_lru_cache_inl.h:end"]}
{"id": "C77", "title": "Digests depend on the data only", "statement": "The digest of an MD5 object is that of all the bytes given to it in order, however they were split over Update calls and however often Digest is asked; updating after Digest trips an assertion, which no signature function does; the printable form of a digest is 32 hexadecimal digits written within its buffer and tells digests apart.", "quantifier": "every sequence of calls and all byte strings", "why_tests_cant": "unbounded data and all ways to split it", "anchors": ["utils/md5.cc:Update", "utils/md5.cc:Digest", "utils/md5.cc:DebugString", "src/signature.cc:GenerateCheckRequestSignature"]}
{"id": "C78", "title": "The cache's pointers stay sound", "statement": "Through every history of legal calls the doubly linked list of evictable entries and the lists of values still in use stay closed rings: no call follows a null or dangling pointer, every entry is in exactly the list it should be in, following the pointers either way from the head visits the evictable entries in order of use, nothing is leaked or freed twice, and answers, counters and destroyed values are those of the abstract cache of the other cache properties.", "quantifier": "every history of cache calls, every clock and every hash order", "why_tests_cant": "unbounded histories over pointer structures", "anchors": ["utils/simple_lru_cache_inl.h:Link", "utils/simple_lru_cache_inl.h:Unlink", "utils/simple_lru_cache_inl.h:Remove", "utils/simple_lru_cache_inl.h:ReleaseWithOptions", "utils/simple_lru_cache_inl.h:UpdateSize", "utils/simple_lru_cache_inl.h:Clear", "utils/simple_lru_cache_inl.h:GarbageCollect", "utils/simple_lru_cache_inl.h:DiscardIdle"]}
{"id": "C79", "title": "The sample transport turns HTTP codes into the statuses it names", "statement": "An HTTP code for which the sample transport names a status (400, 401, 403, 404, 409, 416, 429, 499, 501, 503, 504) is converted to that status, any other to the status of its class, and only 2xx to OK.", "quantifier": "every HTTP code", "why_tests_cant": "a table over all codes, of which no test exists", "anchors": ["sample/transport/http_transport.cc:ConvertHttpCodeToStatus"]}
{"id": "C80", "title": "The sample transport does not report a failed call as a success", "statement": "When the HTTP exchange of a check or report fails (no connection, or an HTTP error), the status given to the client is not OK; so the client does not cache a response and a denied check does not let later ones through. When it succeeds, the status is OK exactly if the body received parses, and the response is the parsed one.", "quantifier": "every request, every behaviour of the network and every division of the body into parts", "why_tests_cant": "all behaviours of the network; there are no tests of the sample", "anchors": ["sample/transport/http_transport.cc:SendHttp", "sample/transport/http_transport.cc:Check", "sample/transport/http_transport.cc:Report", "src/service_control_client_impl.cc:Check"]}
{"id": "C81", "title": "The sample transport posts the whole request", "statement": "The bytes posted are the serialised request, to the address made from server and service name, with the bearer token given.", "quantifier": "every request, server, service name and token", "why_tests_cant": "all byte strings", "anchors": ["sample/transport/http_transport.cc:SendHttp", "sample/transport/http_transport.h:LibCurlTransport"]}
{"id": "C82", "title": "A sample is counted in the bucket its value belongs to (linear layouts)", "statement": "Bucket 0 of a linear layout holds the samples below the offset, bucket i those from offset + (i-1) width up to offset + i width, the last one those from the upper end on: a sample added is counted once, in the bucket in which its value lies, and a larger sample never in a lower bucket.", "quantifier": "every layout with a finite upper end and every sample", "why_tests_cant": "all doubles, with the rounding of each operation", "anchors": ["utils/distribution_helper.cc:UpdateLinearBucketCount", "utils/distribution_helper.h:AddSample"]}
{"id": "C83", "title": "A sample is counted in the bucket its value belongs to (exponential layouts)", "statement": "Bucket 0 of an exponential layout holds the samples below the scale, bucket i those from scale * growth^(i-1) up to scale * growth^i, the last one those from scale * growth^n on: a sample added is counted once, in the bucket in which its value lies, and a larger sample never in a lower bucket.", "quantifier": "every layout with growth factor from 1 + 2^-19, every finite sample up to 2^1023 times the scale and every accurate log2", "why_tests_cant": "all doubles, with the rounding of each operation and of the C library's logarithm", "anchors": ["utils/distribution_helper.cc:UpdateExponentialBucketCount", "utils/distribution_helper.h:AddSample"]}
{"id": "C84", "title": "The reported mean is the mean of the samples", "statement": "The mean of a distribution is the mean of the samples added to it and to the distributions merged into it, up to rounding errors that grow at most with the number of samples; it is an ordinary number between the smallest and the largest sample, and a new sample moves it toward itself and not beyond.", "quantifier": "every history of additions and merges, and all finite samples", "why_tests_cant": "all doubles and unbounded histories, with the rounding of each operation", "anchors": ["utils/distribution_helper.cc:UpdateGeneralStatictics", "utils/distribution_helper.cc:Merge"]}
{"id": "C85", "title": "The reported spread is never negative and never shrinks", "statement": "The sum of squared deviations of a distribution is a number and not negative (so that a variance and its square root can be computed from it); it does not go down when a sample is added, and a merged distribution's is at least that of either part.", "quantifier": "every history of additions and merges, and all finite samples", "why_tests_cant": "all doubles and unbounded histories: the sign depends on the rounding of each operation", "anchors": ["utils/distribution_helper.cc:UpdateGeneralStatictics", "utils/distribution_helper.cc:Merge"]}
{"id": "C86", "title": "The sample transport can be deleted, and answers every call once", "statement": "Each call of the sample transport is answered exactly once, with the answer to its own request, whatever the interleaving of the threads it starts; it posts one request and leaves no memory behind; and the transport object can be deleted without undefined behaviour.", "quantifier": "every sequence of calls, every schedule of the threads and every point of deletion", "why_tests_cant": "all schedules of detached threads; there are no tests of the sample", "anchors": ["sample/transport/http_transport.cc:SendHttp", "sample/transport/http_transport.cc:Check", "sample/transport/http_transport.cc:Report", "sample/transport/http_transport.h:~LibCurlTransport"]}
{"id": "C87", "title": "The transport can be deleted before the client", "statement": "When all calls of the user are done, the client does not call the check or report transport again, so that (as in the sample program) the object behind them can be deleted before the client is.", "quantifier": "every configuration, every schedule and every history of calls", "why_tests_cant": "all histories and schedules; the destructor sends what is cached", "anchors": ["sample/transport/http_sample.cc:main", "src/service_control_client_impl.cc:~ServiceControlClientImpl", "src/check_aggregator_impl.cc:Check", "src/report_aggregator_impl.cc:Report"]}
{"id": "C88", "title": "The aggregators' memory stays sound", "statement": "Through every history of calls the check and report aggregators, with their caches' lists threaded through pointers as in memory, follow no null or dangling pointer and give exactly the results they give over a cache that is a list; between calls nothing is left pinned, every allocated element is in the eviction list and in the table, every cached object belongs to one element and nothing is leaked; destruction finds the cache empty.", "quantifier": "every history of calls, option values, every clock and hash order; the client's threads under every schedule", "why_tests_cant": "unbounded histories over pointer structures", "anchors": ["src/check_aggregator_impl.cc:Check", "src/check_aggregator_impl.cc:CacheResponse", "src/check_aggregator_impl.cc:~CheckAggregatorImpl", "src/report_aggregator_impl.cc:Report", "src/report_aggregator_impl.cc:FlushAll", "utils/simple_lru_cache_inl.h:~SimpleLRUCacheBase"]}
{"id": "C89", "title": "The quota aggregator's memory stays sound while its deleter calls back", "statement": "Through every history of calls the quota aggregator, with its cache's lists threaded through pointers as in memory and its removal callback putting entries back into the cache in the middle of a removal, follows no null or dangling pointer at any depth of nesting and gives exactly the results it gives over a cache that is a list; between calls nothing is left pinned, every allocated element is in the eviction list and in the table, every cached object belongs to one element and nothing is leaked; destruction finds the cache empty.", "quantifier": "every history of calls that return, option values, every clock and hash order; the client's threads under every schedule", "why_tests_cant": "unbounded histories over pointer structures that are changed from within their own traversal", "anchors": ["src/quota_aggregator_impl.cc:Quota", "src/quota_aggregator_impl.cc:OnCacheEntryDelete", "src/quota_aggregator_impl.cc:Flush", "src/quota_aggregator_impl.cc:FlushAll", "utils/simple_lru_cache_inl.h:RemoveElement", "utils/simple_lru_cache_inl.h:InsertPinned", "utils/simple_lru_cache_inl.h:GarbageCollect", "utils/simple_lru_cache_inl.h:DiscardIdle"]}
{"id": "C90", "title": "Every answer comes from the server", "statement": "A caller of Check who is told OK is told what the server answered: to this request, or, if the request may be answered from the cache, to an earlier check request of the same signature, and then the latest answer recorded for it. A caller of Quota who is told OK is told the server's answer to this request or the latest recorded for its signature, or the empty answer. A caller who is told an error is told the transport's error for this request, or INVALID_ARGUMENT because there is no transport or the request cannot be used.", "quantifier": "every configuration, every schedule, every history of calls, flushes and answers", "why_tests_cant": "all schedules and histories: it relates an answer to requests that other threads sent any time before", "anchors": ["src/service_control_client_impl.cc:Check", "src/service_control_client_impl.cc:Quota", "src/service_control_client_impl.cc:Report", "src/check_aggregator_impl.cc:Check", "src/quota_aggregator_impl.cc:Quota"]}
{"id": "C91", "title": "The reported spread is that of the samples, in any order", "statement": "The sum of squared deviations that a distribution reports is the exact one of all samples that went into it, up to a rounding error that is small against the samples, whatever the order in which they were added and however they were split into distributions that were merged.", "quantifier": "every history of additions and merges, and all finite samples", "why_tests_cant": "all doubles and unbounded histories: rounding errors of the mean and of the sum feed into each other", "anchors": ["utils/distribution_helper.cc:UpdateGeneralStatictics", "utils/distribution_helper.cc:Merge"]}
{"id": "C92", "title": "Granted quota is charged at the server", "statement": "The amounts of each metric that Quota calls were granted without the server having been asked first are, once, in the requests that the client sends by itself, or still in the cache; nothing granted is lost, even when the client is destroyed, and nothing is charged twice.", "quantifier": "every configuration, every schedule, every history of calls, flushes, answers and ticks, for every metric", "why_tests_cant": "all schedules and histories: it relates what callers were told to the total of everything that was ever sent", "anchors": ["src/service_control_client_impl.cc:Quota", "src/service_control_client_impl.cc:AllocateQuotaFlushCallback", "src/service_control_client_impl.cc:~ServiceControlClientImpl", "src/quota_aggregator_impl.cc:Quota", "src/quota_aggregator_impl.cc:Flush"]}
{"id": "C93", "title": "Checks that the cache lets pass are reported to the server", "statement": "Every operation of a Check call that was told OK from the cache reaches the server exactly once, merged with others of the same signature into a request that the client sends by itself, at the latest when the client is destroyed; an operation that was sent to the server for its own call is not reported a second time.", "quantifier": "every configuration, every schedule, every history of calls, flushes, answers and ticks", "why_tests_cant": "all schedules and histories: it relates what callers were told to everything that was ever sent", "anchors": ["src/service_control_client_impl.cc:Check", "src/service_control_client_impl.cc:CheckFlushCallback", "src/service_control_client_impl.cc:~ServiceControlClientImpl", "src/check_aggregator_impl.cc:Check", "src/check_aggregator_impl.cc:Flush", "src/check_aggregator_impl.cc:FlushAll"]}
{"id": "C94", "title": "Cached check answers are not stale", "statement": "A Check call that is answered from the cache is given an answer that the server gave less than the flush interval ago.", "quantifier": "every configuration, every schedule, every clock that does not run backwards, every history of calls, flushes, answers and ticks", "why_tests_cant": "all schedules, histories and clocks: it relates the time of an answer to the time at which it was recorded, with any calls in between", "anchors": ["src/service_control_client_impl.cc:Check", "src/check_aggregator_impl.cc:Check", "src/check_aggregator_impl.cc:CacheResponse", "src/check_aggregator_impl.cc:ShouldFlush"]}
{"id": "C95", "title": "Quota answers are refreshed in time", "statement": "Whenever a Quota call is answered from the cache, the latest request to the server for the same quota was made less than the refresh interval before, or by this call itself, or is still waiting for its answer: the cache never goes on answering from a record that is out of date without asking the server.", "quantifier": "every configuration, every schedule, every clock that does not run backwards, every history of calls, flushes, answers and ticks", "why_tests_cant": "all schedules, histories and clocks: it relates the time of an answer to the time of the latest request, with any calls, evictions and reinsertions in between", "anchors": ["src/service_control_client_impl.cc:Quota", "src/quota_aggregator_impl.cc:Quota", "src/quota_aggregator_impl.cc:CacheResponse", "src/quota_aggregator_impl.cc:OnCacheEntryDelete", "src/quota_aggregator_impl.cc:ShouldRefresh"]}
{"id": "C96", "title": "Reports are sent in time", "statement": "Once the client has flushed its reports, every operation of every report it took at least the flush interval before has been sent to the server, on its own or merged with others; only younger ones are still held back, and no taken report is lost or held back by later ones of the same signature.", "quantifier": "every configuration with a flush interval, every schedule, every clock that does not run backwards, every history of calls, flushes, answers and ticks", "why_tests_cant": "all schedules, histories and clocks: it relates the time at which each report was taken to everything that was ever sent", "anchors": ["src/service_control_client_impl.cc:Report", "src/service_control_client_impl.cc:ReportFlushCallback", "src/report_aggregator_impl.cc:Report", "src/report_aggregator_impl.cc:Flush"]}
{"id": "C97", "title": "Container helpers delete what a container owns, once", "statement": "The STLDelete helpers delete exactly the objects that the pointers of a range or container designate, ignore NULL pointers and NULL containers, and leave the container empty; no object is used after it was deleted, even by iterators that look at the object they leave, unless a pointer is listed twice or was deleted before. Whatever a history of LookupOrInsertNew calls created, STLDeleteValues deletes without leaving or touching anything else.", "quantifier": "every heap, container, order of iteration and history of calls", "why_tests_cant": "all containers and heaps, of any size: a double deletion or a leak shows only for some of them", "anchors": ["utils/stl_util.h:STLDeleteContainerPointers", "utils/stl_util.h:STLDeleteContainerPairPointers", "utils/stl_util.h:STLDeleteContainerPairFirstPointers", "utils/stl_util.h:STLDeleteContainerPairSecondPointers", "utils/stl_util.h:STLDeleteElements", "utils/stl_util.h:STLDeleteValues", "utils/stl_util.h:LookupOrInsertNew"]}
{"id": "C98", "title": "Map helpers follow the first offer and the last update", "statement": "In every history of InsertIfNotPresent, InsertOrUpdate, InsertOrReturnExisting, FindWithDefault and FindOrNull calls on a map, a key has the value of the last update, or of the first call that offered one if there was no update since, and each call answers accordingly. LookupOrInsertNew returns the same object for the same key and different ones for different keys, each created by the first call for its key.", "quantifier": "every key and value type, every history of calls", "why_tests_cant": "unbounded histories over all keys", "anchors": ["utils/stl_util.h:InsertIfNotPresent", "utils/stl_util.h:InsertOrUpdate", "utils/stl_util.h:InsertOrReturnExisting", "utils/stl_util.h:FindWithDefault", "utils/stl_util.h:FindOrNull", "utils/stl_util.h:FindPtrOrNull", "utils/stl_util.h:LookupOrInsertNew"]}
{"id": "C99", "title": "The age of the least recently used entry", "statement": "AgeOfLRUItemInMicroseconds returns 0 when the cache has no entry that it may drop, and otherwise the time since the last use of the entry that it would drop next.", "quantifier": "every history of cache operations and every clock that does not run backwards", "why_tests_cant": "all histories and clocks: the entry that is dropped next depends on all uses before, and large ages overflow", "anchors": ["utils/simple_lru_cache_inl.h:AgeOfLRUItemInMicroseconds"]}
