(** The budget of the quota aggregator's calls only decides whether they finish: with more of it a call gives the same
    result, whatever that is. *)
From Verif Require Import Base Proto Signature OpAgg Lru Timeout Agg QuotaAgg.
From stdpp Require Import gmap list.
Local Open Scope Z_scope.
Set Implicit Arguments.

(** [x] ran out of budget, or is [y]. *)
Definition upto {A} (x y : outcome A) : Prop := x = OutOfFuel \/ x = y.

Lemma upto_refl {A} (x : outcome A) : upto x x. Proof. by right. Qed.
Lemma upto_out {A} (y : outcome A) : upto OutOfFuel y. Proof. by left. Qed.
Lemma upto_bind {A B} (x y : outcome A) (f g : A -> outcome B) : upto x y -> (forall a, x = Ok a -> upto (f a) (g a)) ->
  upto (obind x f) (obind y g).
Proof. intros [->| ->] H; [by left|]. destruct y; cbn; [by apply H|by right..]. Qed.
Lemma upto_trans {A} (x y z : outcome A) : upto x y -> upto y z -> upto x z.
Proof. intros [->| ->] H; [by left|done]. Qed.
Lemma upto_ok {A} (x y : outcome A) r : upto x y -> x = Ok r -> y = Ok r.
Proof. by intros [->| ->]. Qed.

Section mono.
Context {V U : Type} `{!EqDecision V}.
Notation world := (world (V:=V) (U:=U)).
Variables (d1 d2 : string -> V -> world -> outcome world).
Variable clk : nat -> Z.
Variable ord : hash_order.
Hypothesis Hd : forall k v w, upto (d1 k v w) (d2 k v w).

Ltac ut := first [apply upto_refl | apply upto_out | done].
Ltac ub := apply upto_bind; [ut|intros].

Lemma discard_upto id w : upto (Discard d1 id w) (Discard d2 id w).
Proof. unfold Discard. ub. ub. apply upto_bind; [apply Hd|intros]. ut. Qed.
Lemma remove_elem_upto id w : upto (RemoveElem d1 id w) (RemoveElem d2 id w).
Proof. unfold RemoveElem. ub. destruct (0 <? _); [ut|apply discard_upto]. Qed.
Lemma remove_upto k w : upto (Remove d1 k w) (Remove d2 k w).
Proof. unfold Remove. destruct (l_table _ !! k); [apply remove_elem_upto|ut]. Qed.
Lemma gc_upto n m cur w : (n <= m)%nat -> upto (gc d1 n cur w) (gc d2 m cur w).
Proof.
  revert m cur w. induction n as [|n IH]; intros m cur w H; [apply upto_out|]. destruct m as [|m]; [lia|]. cbn [gc].
  destruct (Overfull _); [|ut]. destruct cur as [id|]; [|ut]. ub. ub. apply upto_bind; [|intros; apply IH; lia].
  destruct (_ =? 0); [|ut]. ub. apply discard_upto.
Qed.
Lemma idle_upto n m t l cur w : (n <= m)%nat -> upto (idle_loop d1 n t l cur w) (idle_loop d2 m t l cur w).
Proof.
  revert m l cur w. induction n as [|n IH]; intros m l cur w H; [apply upto_out|]. destruct m as [|m]; [lia|]. cbn [idle_loop].
  destruct cur as [id|]; [|ut]. ub. destruct (_ <? t); [|ut]. ub. ub. ub. apply upto_bind; [apply remove_upto|intros; apply IH; lia].
Qed.
Lemma expire_upto n m w : (n <= m)%nat -> upto (RemoveExpiredEntries d1 clk n w) (RemoveExpiredEntries d2 clk m w).
Proof. intros H. unfold RemoveExpiredEntries, DiscardIdle. destruct (0 <=? _); [|ut]. destruct (_ <? 0); [ut|]. by apply idle_upto. Qed.
Lemma lookup_upto n m k w : (n <= m)%nat -> upto (Lru.Lookup d1 clk n k w) (Lru.Lookup d2 clk m k w).
Proof. intros H. unfold Lru.Lookup, LookupWithOptions. apply upto_bind; [by apply expire_upto|intros; ut]. Qed.
Lemma release_cached_upto b k v w : upto (release_cached d1 clk b k v w) (release_cached d2 clk b k v w).
Proof.
  unfold release_cached. destruct (l_table _ !! k); [|ut]. ub. ub. ub. cbn zeta. destruct (_ =? 0); [|ut]. ub.
  destruct (Overfull _); [apply remove_upto|ut].
Qed.
Lemma release_upto k v w : upto (Release d1 clk k v w) (Release d2 clk k v w).
Proof.
  unfold Release, ReleaseWithOptions. destruct (l_defer _ !! k); [|apply release_cached_upto]. ub.
  destruct a; [|apply release_cached_upto]. ub. ub. cbn zeta. destruct (_ =? 0); [apply discard_upto|ut].
Qed.
Lemma insert_upto n m k v u w : (n <= m)%nat -> upto (Lru.Insert d1 clk n k v u w) (Lru.Insert d2 clk m k v u w).
Proof.
  intros H. unfold Lru.Insert. apply upto_bind; [|intros; apply release_upto].
  unfold InsertPinned. apply upto_bind; [apply remove_upto|intros w1 _]. cbn zeta. ub. by apply gc_upto.
Qed.
Lemma remove_each_upto ids w : upto (remove_each d1 ids w) (remove_each d2 ids w).
Proof.
  revert w. induction ids as [|[k id] ids IH]; intros w; cbn [remove_each]; [ut|].
  apply upto_bind; [apply remove_elem_upto|intros; apply IH].
Qed.
Lemma remove_all_upto w : upto (RemoveAll d1 ord w) (RemoveAll d2 ord w).
Proof. unfold RemoveAll. apply upto_bind; [apply remove_each_upto|intros; ut]. Qed.
End mono.

Section quota.
Variable debug : bool.
Variable ord : hash_order.
Variable md5 : string -> string.
Variable clk : nat -> Z.
Variable cf : quota_config.
Notation del := (OnCacheEntryDelete ord clk cf).

Lemma delete_upto fl n m k a w : (n <= m)%nat -> upto (del fl n k a w) (del fl m k a w).
Proof.
  revert m k a w. induction n as [|n IH]; intros m k a w H; [by left|]. destruct m as [|m]; [lia|].
  cbn [OnCacheEntryDelete]. apply upto_bind; [apply upto_refl|intros e _]. cbn zeta. destruct (if fl then _ else _); [|apply upto_refl].
  apply upto_bind; [|intros; apply upto_refl]. apply insert_upto; [|lia]. intros. apply IH. lia.
Qed.
Lemma quota_upto n m q st : (n <= m)%nat -> upto (Quota debug ord md5 clk cf n q st) (Quota debug ord md5 clk cf m q st).
Proof.
  intros H. unfold Quota. destruct (negb _); [apply upto_refl|]. destruct (qr_operation q); [|apply upto_refl].
  destruct (qg_cache st); [|apply upto_refl].
  apply upto_bind; [apply lookup_upto; [intros; by apply delete_upto|done]|intros [w r] _]. cbn [fst snd].
  destruct r as [a|].
  - apply upto_bind; [apply upto_refl|intros e _]. destruct (if negb _ then _ else _) as [[c' u'] e'].
    apply upto_bind; [apply upto_refl|intros e'' _]. apply upto_bind; [|intros; apply upto_refl].
    apply release_upto. intros; by apply delete_upto.
  - apply upto_bind; [|intros; apply upto_refl]. apply insert_upto; [|done]. intros; by apply delete_upto.
Qed.
Lemma response_upto n m q r st : (n <= m)%nat -> upto (QCacheResponse ord md5 clk cf n q r st) (QCacheResponse ord md5 clk cf m q r st).
Proof.
  intros H. unfold QCacheResponse. destruct (qg_cache st); [|apply upto_refl].
  apply upto_bind; [apply lookup_upto; [intros; by apply delete_upto|done]|intros [w o] _]. cbn [fst snd].
  destruct o as [a|]; [|apply upto_refl]. apply upto_bind; [apply upto_refl|intros e _].
  apply upto_bind; [|intros; apply upto_refl]. apply release_upto. intros; by apply delete_upto.
Qed.
Lemma flush_upto n m st : (n <= m)%nat -> upto (QFlush ord clk cf n st) (QFlush ord clk cf m st).
Proof.
  intros H. unfold QFlush. destruct (qg_cache st); [|apply upto_refl].
  apply upto_bind; [|intros; apply upto_refl]. apply expire_upto; [|done]. intros; by apply delete_upto.
Qed.
Lemma flush_all_upto n m st : (n <= m)%nat -> upto (QFlushAll ord clk cf n st) (QFlushAll ord clk cf m st).
Proof.
  intros H. unfold QFlushAll. destruct (qg_cache st); [|apply upto_refl].
  apply upto_bind; [|intros; apply upto_refl]. apply remove_all_upto. intros; by apply delete_upto.
Qed.
End quota.
