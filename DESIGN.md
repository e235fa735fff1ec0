# Formal model of service-control-client-cxx: design

The C++ sources in `/repo` are modelled as total Gallina functions in `rocq/theories`, one definition per C++ function,
each with a comment citing file and lines. Nothing is extracted from or run against the C++: the tie between model and
code is by reading.

## Layout

| file | contents |
|------|----------|
| `Base.v` | outcomes (`Ok`, `UB`, `Abort`, `OutOfFuel`), int32/int64 arithmetic with explicit overflow, bytes |
| `Proto.v` | records for the protobuf messages used |
| `Money.v`, `MoneySpec.v`, `MoneyProofs.v` | `src/money_utils.cc` |
| `Signature.v`, `...Spec.v`, `...Proofs.v` | `src/signature.cc` (MD5 itself is an arbitrary function argument) |
| `Md5Wrapper.v`, `Rfc1321.v` | `utils/md5.{h,cc}` and `src/signature.cc` call by call on MD5 objects; MD5 itself, for examples with the digests that the project's tests expect |
| `Distribution.v` ... | `utils/distribution_helper.cc`, doubles as IEEE binary64 (`SpecFloat`) |
| `OpAgg.v`, `QuotaOpAgg.v` ... | `src/operation_aggregator.cc`, `src/quota_operation_aggregator.cc` |
| `Lru.v` ... | `utils/simple_lru_cache_inl.h`, with heap-allocated elements, pins, deferred list, clock |
| `LruPeek.v` | lookups that leave the eviction order alone, `ScopedLookup`, the iterator |
| `LinkedList.v` ... | pointer-level `Elem::Link/Unlink` |
| `PLru.v`, `PLruSpec.v`, `LinkLay.v`, `PLruProofs.v`, ... | `utils/simple_lru_cache_inl.h` a second time, with its lists threaded through the elements' `next`/`prev` pointers |
| `PAgg.v`, `PAggProofs.v`, `PAggBack.v` | the check and report aggregators a second time, on top of `PLru.v` |
| `PQuota.v`, `PQuotaProofs.v`, `PQuotaFuel.v`, `PQuotaOwn.v`, `PQuotaBack.v` | the quota aggregator a second time, on top of `PLru.v`, its deleter re-entering the pointer-level cache |
| `Timeout.v` ... | the conversion of millisecond options to clock cycles through `double` |
| `Agg.v`, `AggCache.v`, `OpGroups.v` | what the aggregators share: ownership of entries, removed items; the cache as a list of entries; ghost groups of merged operations (the last two are proof-internal) |
| `StlUtil.v`, `StlUtilSpec.v`, `StlUtilProofs.v` | `utils/stl_util.h`: deletion of what containers own, map helpers |
| `CheckAgg.v`, `CheckAggSpec.v`, ... | `src/check_aggregator_impl.{h,cc}` on top of `Lru.v` |
| `ReportAgg.v`, `ReportAggSpec.v`, ... | `src/report_aggregator_impl.{h,cc}` on top of `Lru.v` |
| `QuotaAgg.v` ... | `src/quota_aggregator_impl.{h,cc}` |
| `ClientOptions.v` | `include/aggregation_options.h`, the interval of the periodic timer |
| `Client.v`, `ClientSpec.v` | `service_control_client_impl.{h,cc}` with the locking of `cache_removed_items_handler.h`, as a transition system of threads; the vocabulary over its trace |
| `ClientInv.v`, `ClientCalls.v`, `ClientStage.v`, `ClientFlush.v`, `ClientLocks.v`, `ClientLive.v`, `ClientEnd.v`, `ClientDrain.v`, `ClientQuiet.v`, `ClientCount.v`, `ClientCache.v`, `ClientBodies.v`, `ClientCrash.v`, `ClientFacts.v`, `ClientClaims.v`, `ClientTick.v`, `ClientWhole.v`, `ClientAnswers.v`, `ClientQuota.v`, `ClientCheckEnd.v`, `ClientFresh.v`, `ClientQuotaFresh.v`, `ClientReportTime.v` | invariants of the client and what follows from them |
| `ClientRun.v` | concrete runs of the client for examples and witnesses |
| `Sample.v` | `sample/transport/http_transport.{h,cc}`, the transport users start from: what a call computes |
| `SampleThreads.v` | the same: its detached threads, the heap objects they use, and the deletion of the transport |
| `ClientDisabled.v` | `sample/transport/http_sample.cc`: when a client like its own uses the transport |
| `Props*.v` | only the property theorems, each `exact`ing a lemma, followed by `Print Assumptions` and a witness `Example` |

## Modelling decisions

* Undefined behaviour, failed `assert`s and exhausted loop budgets are separate outcomes, never a default value.
* `int64`/`int32` are `Z` with range checks. Signed overflow is `UB` in strict mode. Money is also modelled in
  wrap-around mode because the code's own overflow test relies on it.
* `double` is `SpecFloat.spec_float` with precision 53 and exponent 1024. `log2` is an oracle argument.
* protobuf maps and `unordered_map`s are `gmap`s. Every loop over a hash map takes its iteration order from an
  arbitrary `HashOrder` argument.
* MD5 is an arbitrary function `string -> string`. Injectivity claims say: equal signatures imply equal inputs or a collision.
* The clock is an arbitrary function from read number to `Z`. Monotonicity is an explicit hypothesis where needed.
* Values in the LRU cache are addresses. Dereferencing a freed address is `UB`. The cache deleter may re-enter the
  cache (the quota aggregator's does), so recursion uses fuel and `OutOfFuel` is a visible outcome.
* Threads: a small-step interleaving semantics. An aggregator operation is one atomic step under its cache mutex, callbacks run
  afterwards under the callback mutex.

## Per-property plan

Refuted means: the property as a user expects it is false of the code; a `_refuted` theorem gives the witness and a
`_partial` theorem proves it under the weakest convenient guard.

* C01 decidable characterisation of `ValidateMoney` against a spec on exact amounts.
* C02 refuted (sub-unit sums); `_partial` with the exact guard. C03, C05, C06 direct case analysis with `lia`.
* C04 refuted in strict mode (signed overflow precedes the check); `_partial` when the unit sum fits.
* C07 sortedness + permutation of label lists. C08-C10 parsing lemma for NUL-separated strings. C11 refuted, `_partial` for requests without metric sets. C12 by congruence.
* C13-C18, C20 invariant over `fold_left` of merges; C19 refuted + characterisation of what is dropped.
* C21 same technique; C22 refuted (empty metric set) + `_partial`.
* C23 invariant over add/merge lists; C24 sortedness of bounds; C25 refuted (empty explicit bounds, infinity), `_partial`
  for explicit and linear layouts; C26 order reasoning on floats; C27 case analysis; C28 field identities over `Q`; C29 refuted (NaN, empty), partial.
* C30-C35 representation invariant for `Lru.v`, preserved by each operation, plus trace-level theorems.
* C36 Flocq error analysis. C37 separation-style invariant on a pointer map.
* C38-C42 refinement of the check aggregator to a list-cache spec; C41 refuted (idle-based expiry), C42 refuted in its last sentence, partial for the rest.
* C43-C47 refinement of the report aggregator and ghost history of merged groups.
* C48-C53: every call is simulated by a move on a list of cells (QuotaCall.v, QuotaMove.v), and an invariant over histories ties each cell to the calls that made it (QuotaLife.v). C51 by a ghost multiset of granted operations (QuotaAcct.v). C49, C51, C52 and C53 refuted, with partial guards (C52 also by a use of a deleted entry, found while proving C89).
* C54 an invariant says for each aggregator call which items are still to be handed out and by whom (ClientFlush.v). C55, C57, C58, C71: each call of the user is in exactly one place (on one stack, at the transport, or done, ClientCalls.v), and a stage invariant relates that place to the events so far (ClientStage.v).
* C56 the counters plus what the stacks still owe equal the counts in the trace (ClientCount.v).
* C59 locks have one owner, whose stack releases them, and nested waits form no cycle unless the quota transport completes in place (ClientLocks.v, ClientLive.v); refuted with a witness and a proof that the thread never goes on. C60 refuted, with the exact culprit as partial.
* C61 the order of the destructor's effects and what FlushAll leaves in the report cache (ClientEnd.v, ReportDrain.v, ClientDrain.v, ClientQuiet.v); refuted for a race with the timer.
* C68, C72 refuted (promises of the header that the library does not keep). C69 lock invariants. C70 each history is one of the sequential model, numbered in the order of the trace.
* C73 ClientTick.v: a measure over all stacks (calls made + calls still to be made = calls that the events give a reason for). C74 ClientWhole.v: the same for forwarded requests and returns, composed with the report aggregator's conservation theorem. C92 ClientQuota.v: the calls of the trace and the calls in the history of the quota aggregator are permutations of one another (both without repetition), then C51's balance. C93 ClientCheckEnd.v: the same for the check cache, with C42. C94 ClientFresh.v: C40's decision, followed from the calls of the aggregator to those of the client. C95 QuotaFresh.v: one more invariant of the moves of QuotaLife.v (an entry in flight has had no answer since its last request); ClientQuotaFresh.v follows it to the calls of the client. C96 ClientReportTime.v: C46 and C74 together. C90 ClientAnswers.v: the moment of an answer is a reachable state of its own, whose stage invariant (C55, C57, C58) leads to a call in the history of an aggregator, and C39 or the life of the quota entry (QuotaLife.v) from there to the recording of an answer and its transport call.
* C64, C65 from the same invariant as C38-C42; C66, C67 from that of C43-C47 (each accepted operation carries the clock reading of its acceptance in the ghost groups).
* C75 refuted (three witnesses); partial: the state with open lookups is the old one with raised pins, a function of the multiset of open lookups. C76 from the representation invariant of C30-C35. C77 induction over call sequences.
* C99 PLruAge.v: the tail of the list is the last evictable entry (C78), its stamp the last use in the books; then the arithmetic of the code with its overflow.
* C97 every STLDelete helper is equal to a deletion of the list of pointees, by induction; one lemma about that. The LookupOrInsertNew histories keep an invariant: the map owns exactly the objects made since the start. C98 induction on the history from its end.
* C78 each pointer-level operation simulates the one of `Lru.v`, whose lists of elements are what the pointers lead through; `Lru.v` never fails on legal calls, so neither do the pointers. C88 the same for the check and report aggregators on top of it, in both directions (a call whose merge is undefined fails in both), with the invariant of `AggCache.v` for the memory between calls. C89 the same for the quota aggregator, whose deleter re-enters the cache: the simulation of each cache operation is for any pair of deleters that simulate each other, and the quota deleters do by induction on the depth of nesting; more depth never changes a result; that nothing leaks is an ownership invariant (each object belongs to one table entry or to the element being deleted).
* C82-C83 real-number readings of the binary64 operations (Flocq's rounding lemmas), error bounds for each of them, and monotonicity of rounding; exactness refuted by computed samples.
* C84-C85 induction over additions and merges with the rounding error of each step; that a sample does not pull the mean beyond itself follows from the mean being a rounded quotient by the count, and a parity argument on the unit in the last place (DistributionSpread.v). C91 DistributionAccuracy.v: the error of the two deviations from the error of the means, the recurrences of the exact sum for a sample and a merge, and an error bound that grows by more than each step adds.
* C79-C81 (the sample transport) refuted: case analysis, and a run of the client for the consequence of C80; partial theorems say exactly what the code does instead.
* C86 invariant over all interleavings of user calls, the deletion and thread steps: for each place in a thread, its local variables and its objects on the heap. C87 from the conservation lemmas of the client (nothing is flushed by a disabled cache) and the order of events of one call; refuted for enabled caches by a run.
* C62, C63 arithmetic; C62 refuted (a zero interval disables the timer, and so on), C63 with the overflow corner.

## Trusted base

* Coq 8.16.1: its kernel (including `vm_compute`, used in examples and witnesses) and the guard checker. No kernel check is switched off.
* Libraries: the standard library, std++ (lists, finite maps) and Flocq (proofs about `double` only). They are compiled with Coq and contribute no axioms beyond those below.
* The reading of the C++ recorded in the comments of the model: nothing checks that the model is the code.

### Axioms

`Print Assumptions` says "Closed under the global context" for every property theorem except these twenty-seven, whose proofs go
through the real numbers of the standard library:
`C19_distributions_partial`, `C25_linear_no_ub_partial`, `C25_exponential_ordinary_partial`, `C27_same_layout_merges`, `C27_tolerance`, `C27_tolerance_zero`,
`C36_within_a_microsecond`, `C36_negative_means_none`, `C36_conversion_defined`, `C52_construction_completes`,
`C64_construction_completes`, `C66_construction_completes`, `C82_linear_exact_refuted`, `C82_linear_grid_partial`, `C82_linear_near_partial`, `C82_linear_order_partial`,
`C82_linear_special_partial`, `C83_exponential_exact_refuted`, `C83_exponential_near_partial`, `C83_exponential_order_partial`,
`C84_mean_near_partial`, `C84_not_beyond_partial`, `C85_spread_nonneg_partial`, `C85_spread_sample_partial`, `C85_spread_merge_partial`,
`C91_spread_near_partial`, `C91_any_order_partial`.
Each of them rests on at most these four axioms of the standard library:

* `ClassicalDedekindReals.sig_forall_dec`
* `ClassicalDedekindReals.sig_not_dec`
* `Classical_Prop.classic`
* `FunctionalExtensionality.functional_extensionality_dep`

`coqchk` on all modules also lists the parameters of `Coq.ssr.ssrunder` and of the abstract real numbers, which the
libraries load and no property theorem depends on.

### What is modelled

* All of `src/money_utils.cc`, `src/signature.cc`, `src/operation_aggregator.cc`, `src/quota_operation_aggregator.cc`,
  `src/check_aggregator_impl.cc`, `src/report_aggregator_impl.cc`, `src/quota_aggregator_impl.cc`, `utils/distribution_helper.cc`,
  `include/aggregation_options.h`, `src/cache_removed_items_handler.h`, `utils/md5.cc`, and of `utils/simple_lru_cache_inl.h` except its debug output and ResizeTable.
* `sample/transport/http_transport.{h,cc}`, with the network and protobuf parsing as arguments, and its threads and heap objects.
* `src/service_control_client_impl.cc`: constructor, destructor, the six calls, the flush callbacks, statistics and timer, as threads that interleave
  at the granularity of mutex operations, atomic increments and calls of user code.

### What is not modelled

* protobuf serialisation, unknown fields and the fields that no function of the library reads (they are one opaque string per message);
* OpenSSL (its MD5 is an arbitrary function; `Rfc1321.v` is used in examples only), logging, memory exhaustion, exceptions thrown by user code;
* the C++ memory model below mutexes and atomic counters: the accesses outside them are to immutable or thread-local data;
* the creation of threads and the periodic timer itself: a timer is anything that calls back at any time until it is stopped;
* libcurl beyond its contract, and `sample/transport/http_sample.cc` beyond the order of its deletions;
* `utils/thread.h` (type aliases), the type traits of `utils/stl_util.h`, `src/mock_transport.h` and the tests.
