(** C75, C76: lookups that leave the eviction order alone, scoped lookups, and the iterator.  The vocabulary is in
    LruSpec.v (runs with the default options) and at the head of LruPeek.v. *)
From stdpp Require Import gmap.
From Verif Require Import Base Proto Lru LruSpec LruClaims LruOrder LruPeek PropsLru.
Local Open Scope Z_scope.

(** ** C75 *)
(** One scoped lookup at a time: for every reachable cache, mode and limit, opening and closing it leaves the very
    cache that removing the overdue entries alone would leave, and last-use times do not change in between. *)
Theorem C75_one_scoped_lookup_partial : forall (V : Type) `{EqDecision V} clk ord, proper_clock clk ->
  forall cf (c : lru V) h k, reach clk ord cf c h -> exists c0 x c1 r,
  step clk ord ORemoveExpired c = Ok (c0, None, x) /\ scoped_begin clk false k c = Ok (c1, r, x) /\ r = peek clk c0 k /\
  scoped_end clk false k r c1 = Ok (c0, []) /\ forall k', GetLastUseTime k' c1 = GetLastUseTime k' c0.
Proof. intros *. apply quiet_once. Qed.
Print Assumptions C75_one_scoped_lookup_partial.
(** Any number of overlapping ones, on any keys and in any order, when no idle limit is set: nothing fails, nothing is
    destroyed, each finds what the cache held at the start, and once they are closed the cache is the one at the start. *)
Theorem C75_overlapping_lookups_partial : forall (V : Type) `{EqDecision V} clk ord, proper_clock clk ->
  forall cf (c : lru V) h p, reach clk ord cf c h -> b_idle (books_of clk cf h) < 0 ->
  exists s, scopes clk false p (Scoped c [] [] []) = Ok s /\ so_destroyed s = [] /\
    (forall k r, (k, r) ∈ so_found s -> r = peek clk c k) /\
    (forall k, peek clk (so_cache s) k = peek clk c k /\ GetLastUseTime k (so_cache s) = GetLastUseTime k c) /\
    (so_open s = [] -> so_cache s = c).
Proof. intros *. apply quiet_many. Qed.
Print Assumptions C75_overlapping_lookups_partial.
(** In age-based mode the option makes no difference, so C30-C35 hold for lookups with either setting. *)
Theorem C75_age_mode_partial : forall (V : Type) `{EqDecision V} clk ord, proper_clock clk ->
  forall cf (c : lru V) h k, reach clk ord cf c h -> cf_lru cf = false ->
  scoped_begin clk false k c = step clk ord (OLookup k) c /\
  forall r, scoped_end clk false k r c =
    match r with Some v => let! crx := step clk ord (ORelease k v) c in Ok (crx.1.1, crx.2) | None => Ok (c, []) end.
Proof. intros *. apply age_ignores. Qed.
Print Assumptions C75_age_mode_partial.

Definition no_limit : config := {| cf_max := 10; cf_timeout := None; cf_lru := true |}.
Definition nl_run (ops : list (op nat)) : option (lru nat * list (event nat)) :=
  match start ex_clk no_limit with Some st => play ex_clk default_order no_limit ops st | None => None end.
Definition nl_state (ops : list (op nat)) : lru nat := match nl_run ops with Some st => st.1 | None => NewCache 0 end.
Definition nl_hist (ops : list (op nat)) : list (event nat) := match nl_run ops with Some st => st.2 | None => [] end.
Lemma nl_reaches ops : nl_run ops <> None -> reach ex_clk default_order no_limit (nl_state ops) (nl_hist ops).
Proof.
  intros H. unfold nl_state, nl_hist. destruct (nl_run ops) as [st|] eqn:E; [|done]. unfold nl_run in E.
  destruct (start ex_clk no_limit) as [s0|] eqn:E0; [|done]. eapply play_reach; [|exact E]. eapply start_reach; [|exact E0]. done.
Qed.
(** Three overlapping lookups on two keys, while an older value of one key is still in use. *)
Example C75_example : let ops := ex_ops in let p := [SBegin "c"; SBegin "x"; SBegin "a"; SBegin "c"; SEnd 3; SEnd 0; SEnd 0; SEnd 0]%string in
  reach ex_clk default_order no_limit (nl_state ops) (nl_hist ops) /\ b_idle (books_of ex_clk no_limit (nl_hist ops)) < 0 /\
  (exists s, scopes ex_clk false p (Scoped (nl_state ops) [] [] []) = Ok s /\ so_open s = [] /\
     so_found s = [("c"%string, Some 4%nat); ("x"%string, None); ("a"%string, None); ("c"%string, Some 4%nat)]) /\
  (exists c1, scoped_begin ex_clk false "c" (nl_state ops) = Ok (c1, Some 4%nat, []) /\ c1 <> nl_state ops).
Proof.
  cbv zeta. split; [apply nl_reaches; vm_compute; discriminate|]. split; [reflexivity|]. split.
  - eexists. split; [vm_compute; reflexivity|]. split; reflexivity.
  - eexists. split; [vm_compute; reflexivity|]. intros E. apply (f_equal (fun c => l_pinned c)) in E. vm_compute in E. discriminate.
Qed.

(** What is false in LRU mode.  With an idle limit, an entry held by such a lookup stays in the eviction list, so the
    next call that removes overdue entries runs into it and the program is terminated (a debug build's assert). *)
Definition slow_clk (n : nat) : Z := 1000 * Z.of_nat n.
Definition slow_cf : config := {| cf_max := 10; cf_timeout := Some 1500; cf_lru := true |}.
Theorem C75_held_past_the_limit_refuted : exists (c : lru nat) h c1 v, proper_clock slow_clk /\
  reach slow_clk default_order slow_cf c h /\ scoped_begin slow_clk false "a" c = Ok (c1, Some v, []) /\
  scoped_begin slow_clk true "b" c1 = Abort /\ scoped_begin slow_clk false "b" c1 = Abort.
Proof.
  destruct (start (V := nat) slow_clk slow_cf) as [s0|] eqn:E0; [|vm_compute in E0; discriminate].
  destruct (play slow_clk default_order slow_cf [OInsert "a"%string 1%nat 4] s0) as [st|] eqn:E1.
  2:{ vm_compute in E0. injection E0 as <-. vm_compute in E1. discriminate. }
  eexists st.1, st.2, _, _. split; [split; unfold slow_clk; intros; lia|]. split.
  { eapply play_reach; [|exact E1]. eapply start_reach; [|exact E0]. cbn. intros n [= <-]. lia. }
  vm_compute in E0. injection E0 as <-. vm_compute in E1. injection E1 as <-. split; [vm_compute; reflexivity|]. split; vm_compute; reflexivity.
Qed.
Print Assumptions C75_held_past_the_limit_refuted.
(** Two scoped lookups of one entry, each opened and closed with its own options.  If the one that leaves the order
    alone is opened and closed first, closing the other links an element that is still in the list: the list is
    corrupted. *)
Theorem C75_mixed_options_corrupt_refuted : exists (c c1 c2 c3 : lru nat) h v,
  reach ex_clk default_order no_limit c h /\
  scoped_begin ex_clk false "a" c = Ok (c1, Some v, []) /\ scoped_begin ex_clk true "a" c1 = Ok (c2, Some v, []) /\
  scoped_end ex_clk false "a" (Some v) c2 = Ok (c3, []) /\
  scoped_end ex_clk true "a" (Some v) c3 = UB ListCorruption.
Proof.
  eexists (nl_state [OInsert "a"%string 1%nat 6]), _, _, _, (nl_hist [OInsert "a"%string 1%nat 6]), _.
  split; [apply nl_reaches; vm_compute; discriminate|]. repeat (split; [vm_compute; reflexivity|]). vm_compute; reflexivity.
Qed.
Print Assumptions C75_mixed_options_corrupt_refuted.
(** In the other order the entry is never put back on the list: nothing is held, the cache is over its size and no call
    that makes room can evict the entry. *)
Theorem C75_mixed_options_leak_refuted : exists (c c1 c2 c3 c4 : lru nat) h v,
  reach ex_clk default_order no_limit c h /\
  scoped_begin ex_clk true "a" c = Ok (c1, Some v, []) /\ scoped_begin ex_clk false "a" c1 = Ok (c2, Some v, []) /\
  scoped_end ex_clk true "a" (Some v) c2 = Ok (c3, []) /\ scoped_end ex_clk false "a" (Some v) c3 = Ok (c4, []) /\
  PinnedSize c4 = 0 /\ DeferredEntries c4 = 0 /\ Size c4 = 6 /\
  exists c5, step ex_clk default_order (OSetMaxSize 0) c4 = Ok (c5, None, []) /\ Size c5 = 6 /\
  exists c6, step ex_clk default_order ORemoveUnpinned c5 = Ok (c6, None, []) /\ Size c6 = 6.
Proof.
  eexists (nl_state [OInsert "a"%string 1%nat 6]), _, _, _, _, (nl_hist [OInsert "a"%string 1%nat 6]), _.
  split; [apply nl_reaches; vm_compute; discriminate|]. repeat (split; [vm_compute; reflexivity|]).
  eexists. split; [vm_compute; reflexivity|]. split; [vm_compute; reflexivity|].
  eexists. split; [vm_compute; reflexivity|]. vm_compute; reflexivity.
Qed.
Print Assumptions C75_mixed_options_leak_refuted.

(** ** C76 *)
Theorem C76_iteration_exact : forall (V : Type) `{EqDecision V} clk ord, proper_clock clk ->
  forall cf (c : lru V) h, reach clk ord cf c h -> exists l, Iterate ord c = Ok l /\
  l.*1 ≡ₚ b_cached (books_of clk cf h) /\ NoDup l.*1.*1 /\ forall y, y ∈ l -> last_use y.1 (books_of clk cf h) = Some y.2.
Proof. intros *. apply iterate_ok. Qed.
Print Assumptions C76_iteration_exact.
Theorem C76_iteration_agrees_with_lookup : forall (V : Type) `{EqDecision V} clk ord, proper_clock clk ->
  forall cf (c : lru V) h l, reach clk ord cf c h -> Iterate ord c = Ok l ->
  forall k v t, (k, v, t) ∈ l <-> peek clk c k = Some v /\ GetLastUseTime k c = Ok t.
Proof. intros *. apply iterate_reads. Qed.
Print Assumptions C76_iteration_agrees_with_lookup.
(** A value that was replaced while in use is alive but not visited. *)
Example C76_example : let ops := [OInsert "a" 1%nat 4; OInsert "b" 2%nat 4; OLookup "a"; OInsert "a" 3%nat 1]%string in
  reach ex_clk default_order (ex_cf true) (ex_state true ops) (ex_hist true ops) /\
  exists l, Iterate default_order (ex_state true ops) = Ok l /\ length l = 2%nat /\ ("a"%string, 3%nat) ∈ l.*1 /\ ("b"%string, 2%nat) ∈ l.*1 /\
  ("a"%string, 1%nat) ∈ (b_alive (books_of ex_clk (ex_cf true) (ex_hist true ops))).*1.
Proof.
  cbv zeta. split; [reaches|]. eexists. split; [vm_compute; reflexivity|]. split; [reflexivity|].
  rewrite !elem_of_list_In. vm_compute. tauto.
Qed.
