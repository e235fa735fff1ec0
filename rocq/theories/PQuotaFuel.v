(** The budget of the calls of the pointer-level quota aggregator only decides whether they finish. *)
From Verif Require Import Base Proto Signature OpAgg Lru Timeout Agg QuotaAgg QuotaAggSpec QuotaFuel LinkedList PLru PAgg PQuota.
From stdpp Require Import gmap list.
Local Open Scope Z_scope.
Set Implicit Arguments.

Section mono.
Context {V U : Type} `{!EqDecision V}.
Variables (d1 d2 : string -> V -> pworld (V:=V) (U:=U) -> outcome (pworld (V:=V) (U:=U))).
Variable clk : nat -> Z.
Variable ord : hash_order.
Hypothesis Hd : forall k v w, upto (d1 k v w) (d2 k v w).

Ltac ut := first [apply upto_refl | apply upto_out | done].
Ltac ub := apply upto_bind; [ut|intros].

Lemma p_discard_upto id w : upto (PDiscard d1 id w) (PDiscard d2 id w).
Proof. unfold PDiscard. ub. ub. apply upto_bind; [apply Hd|intros]. ut. Qed.
Lemma p_remove_elem_upto id w : upto (PRemoveElem d1 id w) (PRemoveElem d2 id w).
Proof. unfold PRemoveElem. ub. ub. destruct (0 <? _); [ut|apply p_discard_upto]. Qed.
Lemma p_remove_upto k w : upto (PRemove d1 k w) (PRemove d2 k w).
Proof. unfold PRemove. destruct (p_table _ !! k); [apply p_remove_elem_upto|ut]. Qed.
Lemma p_gc_upto n m x w : (n <= m)%nat -> upto (p_gc d1 n x w) (p_gc d2 m x w).
Proof.
  revert m x w. induction n as [|n IH]; intros m x w H; [apply upto_out|]. destruct m as [|m]; [lia|]. cbn [p_gc].
  destruct (POverfull _); [|ut]. destruct x as [|i]; [ut|]. ub. ub. apply upto_bind; [|intros; apply IH; lia].
  destruct (_ =? 0); [|ut]. ub. ub. apply p_discard_upto.
Qed.
Lemma p_idle_upto n m t l x w : (n <= m)%nat -> upto (p_idle_loop d1 n t l x w) (p_idle_loop d2 m t l x w).
Proof.
  revert m l x w. induction n as [|n IH]; intros m l x w H; [apply upto_out|]. destruct m as [|m]; [lia|]. cbn [p_idle_loop].
  destruct x as [|i]; [ut|]. ub. destruct (_ <? t); [|ut]. ub. ub. ub. apply upto_bind; [apply p_remove_upto|intros; apply IH; lia].
Qed.
Lemma p_expire_upto n m w : (n <= m)%nat -> upto (PRemoveExpired d1 clk n w) (PRemoveExpired d2 clk m w).
Proof. intros H. unfold PRemoveExpired, PDiscardIdle. destruct (0 <=? _); [|ut]. destruct (_ <? 0); [ut|]. ub. by apply p_idle_upto. Qed.
Lemma p_lookup_upto n m b k w : (n <= m)%nat -> upto (PLookup d1 clk n b k w) (PLookup d2 clk m b k w).
Proof. intros H. unfold PLookup. apply upto_bind; [by apply p_expire_upto|intros; ut]. Qed.
Lemma p_release_cached_upto b k v w : upto (p_release_cached d1 clk b k v w) (p_release_cached d2 clk b k v w).
Proof.
  unfold p_release_cached. destruct (p_table _ !! k); [|ut]. ub. ub. ub. cbn zeta. destruct (_ =? 0); [|ut]. ub.
  destruct (POverfull _); [apply p_remove_upto|ut].
Qed.
Lemma p_release_upto b k v w : upto (PRelease d1 clk b k v w) (PRelease d2 clk b k v w).
Proof.
  unfold PRelease. destruct (p_defer _ !! k); [|apply p_release_cached_upto]. ub. ub. ub.
  destruct (decide _); [|apply p_release_cached_upto]. ub. cbn zeta. destruct (_ =? 0); [|ut]. ub. ub. apply p_discard_upto.
Qed.
Lemma p_insert_upto n m k v u w : (n <= m)%nat -> upto (PInsert d1 clk n k v u w) (PInsert d2 clk m k v u w).
Proof.
  intros H. unfold PInsert. apply upto_bind; [|intros; apply p_release_upto].
  unfold PInsertPinned. apply upto_bind; [apply p_remove_upto|intros w1 _]. cbn zeta. ub. ub. unfold PGarbageCollect. ub. by apply p_gc_upto.
Qed.
Lemma p_remove_each_upto ids w : upto (p_remove_each d1 ids w) (p_remove_each d2 ids w).
Proof.
  revert w. induction ids as [|[k id] ids IH]; intros w; cbn [p_remove_each]; [ut|].
  apply upto_bind; [apply p_remove_elem_upto|intros; apply IH].
Qed.
Lemma p_remove_all_upto w : upto (PRemoveAll d1 ord w) (PRemoveAll d2 ord w).
Proof. unfold PRemoveAll. apply upto_bind; [apply p_remove_each_upto|intros; ut]. Qed.
End mono.

Section quota.
Variable debug : bool.
Variable ord : hash_order.
Variable md5 : string -> string.
Variable clk : nat -> Z.
Variable cf : quota_config.

Lemma p_delete_upto fl n m k a w : (n <= m)%nat -> upto (p_quota_deleter ord clk cf fl n k a w) (p_quota_deleter ord clk cf fl m k a w).
Proof.
  revert m k a w. induction n as [|n IH]; intros m k a w H; [by left|]. destruct m as [|m]; [lia|].
  cbn [p_quota_deleter]. apply upto_bind; [apply upto_refl|intros e _]. cbn zeta. destruct (if fl then _ else _); [|apply upto_refl].
  apply upto_bind; [|intros; apply upto_refl]. apply p_insert_upto; [|lia]. intros. apply IH. lia.
Qed.
Lemma p_qstep_upto n m call p : (n <= m)%nat -> upto (p_qstep debug ord md5 clk cf n call p) (p_qstep debug ord md5 clk cf m call p).
Proof.
  intros H. destruct call as [q|q r| |]; cbn [p_qstep].
  - unfold PQuota. destruct (negb _); [apply upto_refl|]. destruct (qr_operation q); [|apply upto_refl].
    destruct (pqa_cache p); [|apply upto_refl].
    apply upto_bind; [apply p_lookup_upto; [intros; by apply p_delete_upto|done]|intros [w o] _]. cbn [fst snd]. cbn zeta.
    destruct o as [a|].
    + apply upto_bind; [apply upto_refl|intros e _]. destruct (if negb _ then _ else _) as [[c' u'] e'].
      apply upto_bind; [apply upto_refl|intros e'' _]. apply upto_bind; [|intros; apply upto_refl].
      apply p_release_upto. intros; by apply p_delete_upto.
    + apply upto_bind; [|intros; apply upto_refl]. apply p_insert_upto; [|done]. intros; by apply p_delete_upto.
  - unfold PQCacheResponse. destruct (pqa_cache p); [|apply upto_refl].
    apply upto_bind; [apply p_lookup_upto; [intros; by apply p_delete_upto|done]|intros [w o] _]. cbn [fst snd].
    destruct o as [a|]; [|apply upto_refl]. apply upto_bind; [apply upto_refl|intros e _].
    apply upto_bind; [|intros; apply upto_refl]. apply p_release_upto. intros; by apply p_delete_upto.
  - unfold PQFlush. destruct (pqa_cache p); [|apply upto_refl].
    apply upto_bind; [|intros; apply upto_refl]. apply p_expire_upto; [|done]. intros; by apply p_delete_upto.
  - unfold PQFlushAll. destruct (pqa_cache p); [|apply upto_refl].
    apply upto_bind; [|intros; apply upto_refl]. apply p_remove_all_upto. intros; by apply p_delete_upto.
Qed.
Lemma p_returns_same call p r1 r2 : p_returns debug ord md5 clk cf call p r1 -> p_returns debug ord md5 clk cf call p r2 -> r1 = r2.
Proof.
  intros [n E1] [m E2]. destruct (Nat.le_ge_cases n m) as [H|H].
  - pose proof (upto_ok (p_qstep_upto call p H) E1). congruence.
  - pose proof (upto_ok (p_qstep_upto call p H) E2). congruence.
Qed.
Lemma history_same p rs : p_quota_history debug ord md5 clk cf p rs -> forall p' rs', p_quota_history debug ord md5 clk cf p' rs' -> rs.*1 = rs'.*1 -> p' = p /\ rs' = rs.
Proof.
  induction 1 as [p E|p rs call p1 res Hp IH Hr]; intros p' rs' H' Ec.
  - inversion H' as [? E'|? rs2 ? ? ? ? ?]; subst; [split; [congruence|done]|]. rewrite fmap_app in Ec. by destruct (rs2.*1).
  - inversion H' as [? E'|p2 rs2 call2 ? res2 H2 Hr2]; subst; [rewrite fmap_app in Ec; by destruct (rs.*1)|].
    rewrite !fmap_app in Ec. apply app_inj_tail in Ec as [Ec [= <-]]. destruct (IH _ _ H2 Ec) as [-> ->].
    pose proof (p_returns_same Hr Hr2) as [= <- <-]. done.
Qed.
End quota.
