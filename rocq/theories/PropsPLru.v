(** C78: the cache as it is in memory, its lists threaded through the elements' own pointers.  The calls are those of
    C30-C35; [pcstep] and [preach] (PLruSpec.v) are the runs of the pointer-level model of PLru.v. *)
From stdpp Require Import gmap.
From Verif Require Import Base Proto Lru LruSpec LruOrder LinkedList PLru PLruSpec PLruClaims PropsLru.
Local Open Scope Z_scope.

(** No call ever follows a null pointer, touches an element already freed, fails an assertion or runs for ever. *)
Theorem C78_no_bad_pointer : forall (V : Type) `{EqDecision V} clk ord, proper_clock clk ->
  forall cf (p : plru V) h o, preach clk ord cf p h -> legal (books_of clk cf h) o ->
  exists p' r x, pcstep clk ord o p = Ok (p', r, x).
Proof. exact @p_progress. Qed.
Print Assumptions C78_no_bad_pointer.
(** The calls, answers and destroyed values it can produce are those of the cache of C30-C35. *)
Theorem C78_same_histories : forall (V : Type) `{EqDecision V} clk ord, proper_clock clk ->
  forall cf (h : list (event V)), (exists p, preach clk ord cf p h) <-> exists c, reach clk ord cf c h.
Proof. exact @same_histories. Qed.
Print Assumptions C78_same_histories.
(** The counters it reports are what the history says. *)
Theorem C78_counters_agree : forall (V : Type) `{EqDecision V} clk ord, proper_clock clk ->
  forall cf (p : plru V) h, preach clk ord cf p h -> let b := books_of clk cf h in
  p_units p = size_of_all (b_alive b) /\ Z.of_nat (size (p_table p)) = Z.of_nat (length (b_cached b)) /\
  p_pinned p = size_of_all (filter (fun y => y.1 ∈ b_cached b /\ y.1 ∈ b_held b) (b_alive b)) /\
  PCountDeferred p = Ok (Z.of_nat (length (filter (fun y => y.1 ∉ b_cached b) (b_alive b))), size_of_all (filter (fun y => y.1 ∉ b_cached b) (b_alive b))) /\
  (forall k v, PStillInUse k (Some v) p = Ok (bool_decide ((k, v) ∈ (b_alive b).*1))).
Proof. exact @p_counters. Qed.
Print Assumptions C78_counters_agree.
(** The elements allocated are the entries not yet destroyed, one each; every one of them has its links, and the table
    finds the ones that are cached. *)
Theorem C78_memory : forall (V : Type) `{EqDecision V} clk ord, proper_clock clk ->
  forall cf (p : plru V) h, preach clk ord cf p h ->
  (fun q : nat * elem V => (e_key q.2, e_value q.2, e_units q.2)) <$> map_to_list (p_heap p) ≡ₚ b_alive (books_of clk cf h) /\
  (forall n, is_Some (p_links p !! S n) <-> is_Some (p_heap p !! n)) /\
  (forall x, x ∈ b_cached (books_of clk cf h) <-> exists n, p_table p !! x.1 = Some n /\ entry p n = Some x).
Proof. exact @memory. Qed.
Print Assumptions C78_memory.
(** From the head of the list, the next pointers lead through the entries that may be dropped, the last used first, and
    back to the head; the prev pointers lead through them the other way. *)
Theorem C78_eviction_list : forall (V : Type) `{EqDecision V} clk ord, proper_clock clk ->
  forall cf (p : plru V) h, preach clk ord cf p h -> exists rec,
  forward (p_links p) 0 = Some (S <$> rec) /\ backward (p_links p) 0 = Some (rev (S <$> rec)) /\
  entry p <$> rec = Some <$> evictable (cf_lru cf) (books_of clk cf h).
Proof. exact @eviction_list. Qed.
Print Assumptions C78_eviction_list.
(** From the element the deferred table has for a key, the pointers lead, either way, through all the values of that key
    that have left the cache and are still in use, and to nothing else. *)
Theorem C78_deferred_rings : forall (V : Type) `{EqDecision V} clk ord, proper_clock clk ->
  forall cf (p : plru V) h k, preach clk ord cf p h -> match p_defer p !! k with
  | None => left_behind k (books_of clk cf h) = []
  | Some n => exists t, forward (p_links p) (S n) = Some (S <$> t) /\ backward (p_links p) (S n) = Some (rev (S <$> t)) /\
      entry p <$> n :: t ≡ₚ Some <$> left_behind k (books_of clk cf h)
  end.
Proof. exact @deferred_ring. Qed.
Print Assumptions C78_deferred_rings.

(** ** A concrete run: three values of "a" are left behind while in use, the middle one is released and the fourth
    expires *)
Fixpoint p_play (cf : config) (ops : list (op nat)) (st : plru nat * list (event nat)) : option (plru nat * list (event nat)) :=
  match ops with
  | [] => Some st
  | o :: ops' =>
      if decide (legal (books_of ex_clk cf st.2) o) then
        match pcstep ex_clk default_order o st.1 with
        | Ok (p', r, x) => p_play cf ops' (p', st.2 ++ [Event o r x (p_tick st.1) (p_tick p')])
        | _ => None
        end
      else None
  end.
Lemma p_play_reach cf ops st st' : preach ex_clk default_order cf st.1 st.2 -> p_play cf ops st = Some st' -> preach ex_clk default_order cf st'.1 st'.2.
Proof.
  revert st. induction ops as [|o ops IH]; intros st H; cbn [p_play]; [by intros [= <-]|].
  destruct (decide _) as [Hl|]; [|done]. destruct (pcstep ex_clk default_order o st.1) as [[[p' r] x]| | |] eqn:E; try done.
  apply IH. cbn. by eapply preach_step.
Qed.
Definition p_start (cf : config) : option (plru nat * list (event nat)) :=
  match PNewCache (cf_max cf) with
  | Ok p0 => match PSetTimeout p_note ex_clk 2 (cf_timeout cf) (cf_lru cf) (p0, []) with Ok (p1, _) => Some (p1, []) | _ => None end
  | _ => None
  end.
Definition p_run (lru_mode : bool) (ops : list (op nat)) : option (plru nat * list (event nat)) :=
  match p_start (ex_cf lru_mode) with Some st => p_play (ex_cf lru_mode) ops st | None => None end.
Lemma p_run_reach lru_mode ops st : p_run lru_mode ops = Some st -> preach ex_clk default_order (ex_cf lru_mode) st.1 st.2.
Proof.
  unfold p_run, p_start. destruct (PNewCache _) as [p0| | |] eqn:E0; try done. destruct (PSetTimeout _ _ _ _ _ _) as [[p1 x]| | |] eqn:E1; try done.
  intros H. eapply p_play_reach; [|exact H]. cbn. eapply preach_new; [|exact E0|exact E1]. cbn. intros n [= <-]. lia.
Qed.
Definition p_ops : list (op nat) :=
  [OInsertPinned "a" 1%nat 1; OInsertPinned "a" 2%nat 1; OInsertPinned "a" 3%nat 1; OInsert "a" 4%nat 1; OInsert "b" 5%nat 2; OInsert "c" 6%nat 2;
   OLookup "b"; ORelease "b" 5%nat; ORelease "a" 2%nat].
Example C78_example : exists p h, preach ex_clk default_order (ex_cf true) p h /\ length h = 9%nat /\
  forward (p_links p) 0 = Some [5; 6]%nat /\ backward (p_links p) 0 = Some [6; 5]%nat /\
  evictable true (books_of ex_clk (ex_cf true) h) = [("b"%string, 5%nat); ("c"%string, 6%nat)] /\
  entry p <$> [4; 5]%nat = Some <$> [("b"%string, 5%nat); ("c"%string, 6%nat)] /\
  p_defer p !! "a"%string = Some 0%nat /\ forward (p_links p) 1 = Some [3]%nat /\
  entry p <$> [0; 2]%nat = Some <$> [("a"%string, 1%nat); ("a"%string, 3%nat)] /\
  PStillInUse "a" (Some 2%nat) p = Ok false /\ PStillInUse "a" (Some 1%nat) p = Ok true /\
  legal (books_of ex_clk (ex_cf true) h) (ORelease "a" 3%nat).
Proof.
  destruct (p_run true p_ops) as [[p h]|] eqn:E; [|by vm_compute in E].
  exists p, h. split; [exact (p_run_reach _ _ _ E)|]. vm_compute in E. injection E as <- <-. vm_compute.
  repeat match goal with |- _ /\ _ => split end; try done. left.
Qed.
