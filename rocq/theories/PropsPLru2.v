(** C99: the age of the least recently used entry. *)
From Verif Require Import Base Proto Lru LruSpec LruOrder LinkedList PLru PLruSpec PLruClaims PLruAge PropsLru PropsPLru.
From stdpp Require Import gmap list.
Local Open Scope Z_scope.

(** In every state that calls lead to: when no entry may be dropped the answer is 0; otherwise it is the time from the last use of the entry that would
    be dropped next (the last of the evictable ones, most recently used first) to now, in microseconds, as long as that is at most 9223372036854, which
    is about 106 days.  Beyond that the product in the code overflows. *)
Theorem C99_age_partial : forall (V : Type) `{EqDecision V} clk ord, proper_clock clk -> forall cf (p : plru V) h, preach clk ord cf p h ->
  match last (evictable (cf_lru cf) (books_of clk cf h)) with
  | None => AgeOfLRUItemInMicroseconds clk p = Ok 0
  | Some x => exists t, last_use x (books_of clk cf h) = Some t /\ t <= clk (p_tick p) /\
      AgeOfLRUItemInMicroseconds clk p = if clk (p_tick p) - t <=? 9223372036854 then Ok (clk (p_tick p) - t) else UB SignedOverflow
  end.
Proof. intros V ? clk ord Hc cf p h. apply age_last, Hc. Qed.
Print Assumptions C99_age_partial.
Definition age_ops : list (op nat) := [OInsert "b" 5%nat 2; OInsert "c" 6%nat 2; OLookup "b"; ORelease "b" 5%nat].
Example C99_example : exists p h, preach ex_clk default_order (ex_cf true) p h /\
  evictable true (books_of ex_clk (ex_cf true) h) = [("b"%string, 5%nat); ("c"%string, 6%nat)] /\
  (exists t, last_use ("c"%string, 6%nat) (books_of ex_clk (ex_cf true) h) = Some t /\ AgeOfLRUItemInMicroseconds ex_clk p = Ok (ex_clk (p_tick p) - t) /\ ex_clk (p_tick p) - t = 30).
Proof.
  destruct (p_run true age_ops) as [[p h]|] eqn:E; [|by vm_compute in E].
  exists p, h. split; [exact (p_run_reach _ _ _ E)|]. vm_compute in E. injection E as <- <-. split; [vm_compute; reflexivity|].
  eexists. split; [vm_compute; reflexivity|]. split; vm_compute; reflexivity.
Qed.

(** An entry that is put in a cache without a timeout and is not used for 107 days: asking for its age is undefined. *)
Definition day_clk (n : nat) : Z := 107 * 24 * 3600 * 1000000 * Z.of_nat n.
Definition day_cf : config := {| cf_max := 10; cf_timeout := None; cf_lru := true |}.
Theorem C99_long_idle_refuted : exists (p : plru nat) h, proper_clock day_clk /\ preach day_clk default_order day_cf p h /\ length h = 1%nat /\
  evictable true (books_of day_clk day_cf h) = [("a"%string, 1%nat)] /\ AgeOfLRUItemInMicroseconds day_clk p = UB SignedOverflow.
Proof.
  eexists _, _. split. { split; unfold day_clk; intros; lia. }
  split. { eapply preach_step; [eapply preach_new; [done|vm_compute; reflexivity|vm_compute; reflexivity]| |].
    - instantiate (1 := OInsert "a" 1%nat 1). vm_compute. repeat split; try done; set_solver.
    - vm_compute. reflexivity. }
  split_and!; vm_compute; reflexivity.
Qed.
Print Assumptions C99_long_idle_refuted.
