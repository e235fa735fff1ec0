(** C30-C35: the cache.  The vocabulary is in LruSpec.v: a run is a list of events, [books_of] is the bookkeeping
    a user could do from the events alone, [legal] is the documented protocol and [reach] the states it reaches. *)
From stdpp Require Import gmap.
From Verif Require Import Base Proto Lru LruSpec LruClaims LruOrder.
Local Open Scope Z_scope.

(** ** A concrete run, for the examples *)
Definition ex_clk (n : nat) : Z := 10 * Z.of_nat n.
Lemma ex_clock : proper_clock ex_clk.
Proof. split; unfold ex_clk; intros; lia. Qed.
Definition ex_cf (lru_mode : bool) : config := {| cf_max := 10; cf_timeout := Some 45; cf_lru := lru_mode |}.
Definition ex_run (cf : config) (ops : list (op nat)) : option (lru nat * list (event nat)) :=
  match start ex_clk cf with Some st => play ex_clk default_order cf ops st | None => None end.
Lemma ex_reach lru_mode ops st : ex_run (ex_cf lru_mode) ops = Some st -> reach ex_clk default_order (ex_cf lru_mode) st.1 st.2.
Proof.
  unfold ex_run. destruct (start ex_clk (ex_cf lru_mode)) as [s0|] eqn:E; [|done]. intros H. eapply play_reach; [|exact H].
  eapply start_reach; [|exact E]. cbn. intros n [= <-]. lia.
Qed.
(** Insert two, look one up, replace it while it is in use, overflow, release. *)
Definition ex_ops : list (op nat) :=
  [OInsert "a" 1%nat 4; OInsert "b" 2%nat 4; OLookup "a"; OInsert "a" 3%nat 4; OInsert "c" 4%nat 3].
Definition ex_state (lru_mode : bool) (ops : list (op nat)) : lru nat :=
  match ex_run (ex_cf lru_mode) ops with Some st => st.1 | None => NewCache 0 end.
Definition ex_hist (lru_mode : bool) (ops : list (op nat)) : list (event nat) :=
  match ex_run (ex_cf lru_mode) ops with Some st => st.2 | None => [] end.
Lemma ex_reaches lru_mode ops : ex_run (ex_cf lru_mode) ops <> None ->
  reach ex_clk default_order (ex_cf lru_mode) (ex_state lru_mode ops) (ex_hist lru_mode ops).
Proof.
  intros H. unfold ex_state, ex_hist. destruct (ex_run (ex_cf lru_mode) ops) as [st|] eqn:E; [|done]. by eapply ex_reach.
Qed.
Ltac reaches := apply ex_reaches; vm_compute; discriminate.

(** ** C30 *)
Theorem C30_no_assertion_fires : forall (V : Type) `{EqDecision V} clk ord, proper_clock clk ->
  forall cf (c : lru V) h o, reach clk ord cf c h -> legal (books_of clk cf h) o ->
  exists c' r x, step clk ord o c = Ok (c', r, x).
Proof. exact @progress. Qed.
Print Assumptions C30_no_assertion_fires.
Theorem C30_counters_agree : forall (V : Type) `{EqDecision V} clk ord, proper_clock clk ->
  forall cf (c : lru V) h, reach clk ord cf c h -> let b := books_of clk cf h in
  Size c = size_of_all (b_alive b) /\ Entries c = Z.of_nat (length (b_cached b)) /\
  PinnedSize c = size_of_all (filter (fun y => y.1 ∈ b_cached b /\ y.1 ∈ b_held b) (b_alive b)) /\
  DeferredEntries c = Z.of_nat (length (filter (fun y => y.1 ∉ b_cached b) (b_alive b))) /\
  DeferredSize c = Ok (size_of_all (filter (fun y => y.1 ∉ b_cached b) (b_alive b))) /\
  (forall k v, StillInUse k (Some v) c = Ok (bool_decide ((k, v) ∈ (b_alive b).*1))) /\
  (forall k v, peek clk c k = Some v <-> (k, v) ∈ b_cached b) /\
  (forall k v, (k, v) ∈ b_cached b -> exists t, last_use (k, v) b = Some t /\ GetLastUseTime k c = Ok t).
Proof. exact @counters. Qed.
Print Assumptions C30_counters_agree.
Example C30_example : let c := ex_state true ex_ops in let h := ex_hist true ex_ops in
  reach ex_clk default_order (ex_cf true) c h /\ length h = 5%nat /\
  Size c = 7 /\ DeferredSize c = Ok 4 /\ DeferredEntries c = 1 /\ StillInUse "a" (Some 1%nat) c = Ok true /\
  legal (books_of ex_clk (ex_cf true) h) (ORelease "a" 1%nat).
Proof. split; [reaches|]. vm_compute. repeat split; try done. left. Qed.

(** ** C31 *)
Theorem C31_destroyed_exactly_once : forall (V : Type) `{EqDecision V} clk ord, proper_clock clk ->
  forall cf (c : lru V) h, reach clk ord cf c h ->
  inserted h ≡ₚ destroyed h ++ (b_alive (books_of clk cf h)).*1 /\
  (forall y, y ∈ (b_alive (books_of clk cf h)).*1 <-> y ∈ b_cached (books_of clk cf h) \/ y ∈ b_held (books_of clk cf h)).
Proof.
  intros V H clk ord Hc cf c h R. split; [by eapply conserve|]. intros y. split; [by eapply alive_why|].
  intros [X|X]; eapply held_alive; eauto.
Qed.
Print Assumptions C31_destroyed_exactly_once.
Theorem C31_never_while_in_use : forall (V : Type) `{EqDecision V} clk ord, proper_clock clk ->
  forall cf (c : lru V) h o c' r x, reach clk ord cf c h -> legal (books_of clk cf h) o -> step clk ord o c = Ok (c', r, x) ->
  forall y, y ∈ x -> y ∉ b_held (books_of clk cf (h ++ [Event o r x (l_tick c) (l_tick c')])).
Proof. exact @not_held. Qed.
Print Assumptions C31_never_while_in_use.
Theorem C31_clear_leaks_nothing : forall (V : Type) `{EqDecision V} clk ord, proper_clock clk ->
  forall cf (c : lru V) h c' r x, reach clk ord cf c h -> legal (books_of clk cf h) OClear -> step clk ord OClear c = Ok (c', r, x) ->
  x ≡ₚ (b_alive (books_of clk cf h)).*1 /\ DestroyCache c' = Ok tt.
Proof. exact @cleared. Qed.
Print Assumptions C31_clear_leaks_nothing.
Example C31_example : let ops := ex_ops ++ [ORelease "a" 1%nat] in
  reach ex_clk default_order (ex_cf true) (ex_state true ops) (ex_hist true ops) /\
  inserted (ex_hist true ops) = [("a", 1%nat); ("b", 2%nat); ("a", 3%nat); ("c", 4%nat)]%string /\
  destroyed (ex_hist true ops) = [("b", 2%nat); ("a", 3%nat); ("a", 1%nat)]%string /\
  legal (books_of ex_clk (ex_cf true) (ex_hist true ops)) OClear.
Proof. split; [reaches|]. vm_compute. repeat split. Qed.

(** ** C32 *)
Theorem C32_lookup_returns_latest : forall (V : Type) `{EqDecision V} clk ord, proper_clock clk ->
  forall cf (c : lru V) h k c' r x v, reach clk ord cf c h -> step clk ord (OLookup k) c = Ok (c', r, x) ->
  r = Some v -> latest k h = Some v.
Proof. exact @lookup_latest. Qed.
Print Assumptions C32_lookup_returns_latest.
Theorem C32_lookup_finds_entry : forall (V : Type) `{EqDecision V} clk ord, proper_clock clk ->
  forall cf (c : lru V) h1 ev h2 k v u c' r x, reach clk ord cf c (h1 ++ ev :: h2) -> step clk ord (OLookup k) c = Ok (c', r, x) ->
  inserted_by (ev_op ev) = Some (k, v, u) -> (k, v) ∉ ev_destroyed ev ->
  (forall l1 ev2 l2, h2 ++ [Event (OLookup k) r x (l_tick c) (l_tick c')] = l1 ++ ev2 :: l2 ->
     ~ takes_out clk (cf_lru cf) (books_of clk cf (h1 ++ ev :: l1)) ev2 (k, v)) ->
  r = Some v.
Proof. exact @lookup_found. Qed.
Print Assumptions C32_lookup_finds_entry.
Example C32_example : exists c' x, step ex_clk default_order (OLookup "c"%string) (ex_state true ex_ops) = Ok (c', Some 4%nat, x) /\
  latest "c" (ex_hist true ex_ops) = Some 4%nat /\ latest "a" (ex_hist true ex_ops) = Some 3%nat.
Proof. eexists _, _. split; [vm_compute; reflexivity|]. vm_compute. done. Qed.

Example C32_finds_example : exists h1 ev c' x, ex_hist true ex_ops = h1 ++ [ev] /\
  inserted_by (ev_op ev) = Some ("c"%string, 4%nat, 3) /\ ("c"%string, 4%nat) ∉ ev_destroyed ev /\
  step ex_clk default_order (OLookup "c"%string) (ex_state true ex_ops) = Ok (c', Some 4%nat, x) /\
  forall l1 ev2 l2, [] ++ [Event (OLookup "c"%string) (Some 4%nat) x (l_tick (ex_state true ex_ops)) (l_tick c')] = l1 ++ ev2 :: l2 ->
    ~ takes_out ex_clk true (books_of ex_clk (ex_cf true) (h1 ++ ev :: l1)) ev2 ("c"%string, 4%nat).
Proof.
  let l := eval vm_compute in (ex_hist true ex_ops) in match l with [?a; ?b; ?c; ?d; ?e] => exists [a; b; c; d], e end.
  eexists _, []. split; [vm_compute; reflexivity|]. split; [reflexivity|].
  split; [cbn [ev_destroyed]; rewrite elem_of_list_In; cbn; intuition discriminate|]. split; [vm_compute; reflexivity|].
  intros [|a l1] ev2 l2 E; [|by destruct l1]. injection E as <- <-. unfold takes_out. intros [X|[X _]]; [|done]. by apply elem_of_nil in X.
Qed.

(** ** C33 *)
Theorem C33_size_bounded : forall (V : Type) `{EqDecision V} clk ord, proper_clock clk ->
  forall cf (c : lru V) h, reach clk ord cf c h ->
  Size c <= b_max (books_of clk cf h) \/ (forall y, y ∈ b_cached (books_of clk cf h) -> y ∈ b_held (books_of clk cf h)).
Proof. exact @bounded. Qed.
Print Assumptions C33_size_bounded.
Example C33_example : let ops := [OInsertPinned "a" 1%nat 6; OInsertPinned "b" 2%nat 6]%string in
  reach ex_clk default_order (ex_cf true) (ex_state true ops) (ex_hist true ops) /\ Size (ex_state true ops) = 12 /\
  Size (ex_state true (ops ++ [ORelease "a" 1%nat])) = 6.
Proof. split; [reaches|]. vm_compute. done. Qed.

(** ** C34 *)
Theorem C34_least_recent_first : forall (V : Type) `{EqDecision V} clk ord, proper_clock clk ->
  forall cf (c : lru V) h o c' r x, reach clk ord cf c h -> legal (books_of clk cf h) o -> makes_room o = true ->
  step clk ord o c = Ok (c', r, x) ->
  let b' := books_of clk cf (h ++ [Event o r x (l_tick c) (l_tick c')]) in
  forall d y, d ∈ x -> ~ other_reason o (books_of clk cf h) d -> y ∈ b_cached b' -> y ∉ b_held b' -> more_recent y d b'.
Proof. exact @evict_first. Qed.
Print Assumptions C34_least_recent_first.
(** An entry goes only while what is still alive is too big. *)
Theorem C34_no_more_than_needed : forall (V : Type) `{EqDecision V} clk ord, proper_clock clk ->
  forall cf (c : lru V) h o c' r x, reach clk ord cf c h -> legal (books_of clk cf h) o -> makes_room o = true ->
  step clk ord o c = Ok (c', r, x) ->
  forall pre d post, x = pre ++ d :: post -> ~ other_reason o (books_of clk cf h) d ->
  b_max (books_of clk cf (h ++ [Event o r x (l_tick c) (l_tick c')])) <
    size_of_all (filter (fun y => y.1 ∉ pre) (ledger o (books_of clk cf h))).
Proof. exact @needed. Qed.
Print Assumptions C34_no_more_than_needed.
Example C34_example : let ops := [OInsert "a" 1%nat 4; OInsert "b" 2%nat 4; OLookup "a"; ORelease "a" 1%nat]%string in
  reach ex_clk default_order (ex_cf true) (ex_state true ops) (ex_hist true ops) /\
  exists c', step ex_clk default_order (OInsert "c"%string 3%nat 4) (ex_state true ops) = Ok (c', None, [("b"%string, 2%nat)]) /\
  peek ex_clk c' "a" = Some 1%nat.
Proof. split; [reaches|]. eexists. split; [vm_compute; reflexivity|]. vm_compute. done. Qed.

(** ** C35 *)
Theorem C35_destroys_exactly_the_overdue : forall (V : Type) `{EqDecision V} clk ord, proper_clock clk ->
  forall cf (c : lru V) h o c' r x, reach clk ord cf c h -> legal (books_of clk cf h) o -> expires o = true ->
  step clk ord o c = Ok (c', r, x) ->
  forall y, y ∈ x <-> y ∈ b_cached (books_of clk cf h) /\ y ∉ b_held (books_of clk cf h) /\
                      overdue (clk (l_tick c)) (limit_after o (books_of clk cf h)) (books_of clk cf h) y = true.
Proof. exact @expiry. Qed.
Print Assumptions C35_destroys_exactly_the_overdue.
Theorem C35_keeps_the_rest : forall (V : Type) `{EqDecision V} clk ord, proper_clock clk ->
  forall cf (c : lru V) h o c' r x, reach clk ord cf c h -> legal (books_of clk cf h) o -> expires o = true ->
  step clk ord o c = Ok (c', r, x) ->
  forall k v, peek clk c' k = Some v <-> peek clk c k = Some v /\
    ~ (overdue (clk (l_tick c)) (limit_after o (books_of clk cf h)) (books_of clk cf h) (k, v) = true /\
       (cf_lru cf = false \/ (k, v) ∉ b_held (books_of clk cf h))).
Proof. exact @expiry_rest. Qed.
Print Assumptions C35_keeps_the_rest.
Example C35_example : let ops := [OInsert "a" 1%nat 1; OInsertPinned "b" 2%nat 1; OLookup "z"; OLookup "z"; OInsert "c" 3%nat 1]%string in
  reach ex_clk default_order (ex_cf false) (ex_state false ops) (ex_hist false ops) /\
  exists c', step ex_clk default_order ORemoveExpired (ex_state false ops) = Ok (c', None, [("a"%string, 1%nat)]) /\
  peek ex_clk c' "b" = Some 2%nat /\ peek ex_clk c' "c" = Some 3%nat.
Proof. split; [reaches|]. eexists. split; [vm_compute; reflexivity|]. vm_compute. done. Qed.
