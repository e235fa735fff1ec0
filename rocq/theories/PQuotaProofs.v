(** The quota aggregator on the pointer-level cache does what the one on the list-level cache does. *)
From Verif Require Import Base Proto Signature OpAgg Lru LruSpec LruSim Timeout Agg QuotaAgg QuotaAggSpec LinkedList LinkedListProofs LinkLay PLru PLruProofs PLruRest PLruClaims PAgg PAggProofs PQuota.
From stdpp Require Import gmap list.
Local Open Scope Z_scope.
Set Implicit Arguments.

(** ** Elements outside the cache's structures stay there *)
Section stray.
Context {V U : Type} `{!EqDecision V}.
Notation world := (world (V:=V) (U:=U)).
Variable del : string -> V -> world -> outcome world.
Variable clk : nat -> Z.
Implicit Types (c : lru V) (u : U) (w : world).

Lemma stray_of n c c' : stray n c -> (n ∈ l_list c' -> n ∈ l_list c) -> (deferred (l_defer c') n -> deferred (l_defer c) n) ->
  (forall k, l_table c' !! k = Some n -> exists k', l_table c !! k' = Some n) -> (l_next_id c <= l_next_id c')%nat -> stray n c'.
Proof.
  intros (S1 & S2 & S3 & S4) H1 H2 H3 H4. split_and!; [by intros X; apply S1, H1|by intros X; apply S2, H2| |by eapply Nat.lt_le_trans]. intros k Hk. apply H3 in Hk as [k' Hk]. by apply (S3 k').
Qed.
Hypothesis Hdel : forall k v c u c' u' n, del k v (c, u) = Ok (c', u') -> stray n c -> stray n c'.
Ltac bi H := let a := fresh "a" in let E := fresh "E" in apply obind_ok_inv in H as (a & E & H).

Lemma discard_stray i w w' n : Discard del i w = Ok w' -> stray n w.1 -> stray n w'.1.
Proof.
  unfold Discard. intros H S. bi H. bi H. bi H. destruct a1 as [c1 u1]. cbn [fst snd] in *. destruct (l_heap c1 !! i); [|done]. injection H as <-. cbn [fst].
  eapply stray_of; [eapply (Hdel E1); eapply stray_of; [exact S|..]|..]; cbn; eauto.
Qed.
Lemma remove_elem_stray i w w' n : RemoveElem del i w = Ok w' -> i <> n -> stray n w.1 -> stray n w'.1.
Proof.
  unfold RemoveElem. intros H N S. bi H. assert (S1 : stray n (Unlink i w.1)).
  { eapply stray_of; [exact S|..]; cbn; eauto. intros X. by apply elem_of_list_filter in X as [_ X]. }
  destruct (0 <? e_pin a).
  - assert (X : forall t, (forall x, x ∈ t -> x = i \/ deferred (l_defer w.1) x) -> stray n (set_defer (<[e_key a := t]> (l_defer w.1)) (set_pinned (l_pinned (Unlink i w.1) - e_units a) (Unlink i w.1)))).
    { intros t Ht. eapply stray_of; [exact S1|..]; cbn; eauto. intros (k & t0 & Hk & X). destruct (decide (k = e_key a)) as [->|Nk].
      - rewrite lookup_insert in Hk. injection Hk as <-. destruct (Ht _ X) as [->|Y]; [done|exact Y].
      - rewrite lookup_insert_ne in Hk by done. by exists k, t0. }
    cbn [set_pinned Unlink set_list l_defer] in *. destruct (l_defer w.1 !! e_key a) as [[|h t]|] eqn:Ed; [done| |]; injection H as <-; apply X.
    + intros x [->|Hx]%elem_of_cons; [right; exists (e_key a), (h :: t); split; [done|left]|].
      apply elem_of_cons in Hx as [->|Hx]; [by left|]. right. exists (e_key a), (h :: t). split; [done|by right].
    + intros x ->%elem_of_list_singleton. by left.
  - eapply discard_stray; [exact H|done].
Qed.
Lemma remove_stray k w w' n : Remove del k w = Ok w' -> stray n w.1 -> stray n w'.1.
Proof.
  unfold Remove. destruct (l_table w.1 !! k) as [i|] eqn:E; [|by intros [= <-]]. intros H S. eapply remove_elem_stray; [exact H| |].
  - intros ->. destruct S as (_ & _ & S & _). by apply (S k).
  - eapply stray_of; [exact S|..]; cbn; eauto. intros k' X. apply lookup_delete_Some in X as [_ X]. eauto.
Qed.
Lemma gc_stray m : forall o w w' n, gc del m o w = Ok w' -> stray n w.1 -> stray n w'.1.
Proof.
  induction m as [|m IH]; intros o w w' n H S; [done|]. cbn [gc] in H. destruct (Overfull _); [|by injection H as <-]. destruct o as [i|]; [|by injection H as <-].
  bi H. bi H. bi H. eapply IH; [exact H|]. destruct (e_pin a =? 0); [|by injection E1 as <-]. bi E1. eapply discard_stray; [exact E1|].
  eapply stray_of; [exact S|..]; cbn; eauto.
  - intros X. by apply elem_of_list_filter in X as [_ X].
  - intros k' X. apply lookup_delete_Some in X as [_ X]. eauto.
Qed.
Lemma link_stray i c c' n : LinkFront i c = Ok c' -> i <> n -> stray n c -> stray n c'.
Proof.
  unfold LinkFront. destruct (decide _); [done|]. intros [= <-] N S. eapply stray_of; [exact S|..]; cbn; eauto. intros [X|X]%elem_of_cons; [congruence|done].
Qed.
Lemma undefer_sub k t i c n : l_defer c !! k = Some t -> deferred (l_defer (undefer k t i c)) n -> deferred (l_defer c) n.
Proof.
  intros Ek. unfold undefer. destruct t as [|h t]; [done|]. destruct (decide (i = h)); [destruct (rev t) as [|z r] eqn:Er|]; cbn [set_defer l_defer].
  - intros (k' & t' & X & Y). apply lookup_delete_Some in X as [_ X]. by exists k', t'.
  - rewrite insert_delete_insert. rewrite deferred_insert. intros [X|X]; [|by apply deferred_delete in X]. exists k, (h :: t). split; [done|]. right.
    assert (Et : t = rev r ++ [z]) by (rewrite <- (rev_involutive t), Er; done). rewrite Et, elem_of_app. apply elem_of_cons in X as [->|X]; [right; left|by left].
  - rewrite deferred_insert. intros [X|X]; [|by apply deferred_delete in X]. exists k, (h :: t). split; [done|].
    apply elem_of_cons in X as [->|X]; [left|]. right. by apply elem_of_list_filter in X as [_ X].
Qed.
Lemma release_cached_stray b k v w w' n : release_cached del clk b k v w = Ok w' -> stray n w.1 -> stray n w'.1.
Proof.
  unfold release_cached. destruct (l_table w.1 !! k) as [i|] eqn:E; [|done]. intros H S. assert (N : i <> n) by (intros ->; destruct S as (_ & _ & S & _); by apply (S k)).
  bi H. bi H. bi H. cbn zeta in H. set (touch := l_lru w.1 && b) in *. set (e1 := if touch then _ else a) in *. set (c := store i _ _) in *.
  assert (Sc : stray n c) by (unfold c; destruct touch; eapply stray_of; try exact S; cbn; eauto). clearbody c e1.
  destruct (_ =? 0); [|by injection H as <-]. apply obind_ok_inv in H as (c2 & E9 & H).
  assert (S2 : stray n c2) by (destruct touch; [by eapply link_stray|by injection E9 as <-]).
  destruct (Overfull _).
  - eapply remove_stray; [exact H|]. eapply stray_of; [exact S2|..]; cbn; eauto.
  - injection H as <-. eapply stray_of; [exact S2|..]; cbn; eauto.
Qed.
Lemma release_stray b k v w w' n : ReleaseWithOptions del clk b k v w = Ok w' -> stray n w.1 -> stray n w'.1.
Proof.
  unfold ReleaseWithOptions. destruct (l_defer w.1 !! k) as [t|] eqn:E; [|apply release_cached_stray]. intros H S. apply obind_ok_inv in H as (found & E0 & H).
  destruct found as [i|]; [|by eapply release_cached_stray]. bi H. bi H. destruct (_ =? 0).
  - eapply discard_stray; [exact H|]. assert (S1 : forall e, stray n (store i e w.1)) by (intros e; eapply stray_of; [exact S|..]; cbn; eauto).
    eapply stray_of; [apply (S1 (set_pin (e_pin a - 1) a))|..].
    + unfold undefer. destruct t as [|h t]; [done|]. by destruct (decide _); [destruct (rev t)|].
    + by apply undefer_sub.
    + intros k' X. exists k'. revert X. unfold undefer. destruct t as [|h t]; [done|]. by destruct (decide _); [destruct (rev t)|].
    + unfold undefer. destruct t as [|h t]; [done|]. by destruct (decide _); [destruct (rev t)|].
  - injection H as <-. eapply stray_of; [exact S|..]; cbn; eauto.
Qed.
Lemma insert_stray m k v x w w' n : Lru.Insert del clk m k v x w = Ok w' -> stray n w.1 -> stray n w'.1.
Proof.
  unfold Lru.Insert, InsertPinned. intros H S. apply obind_ok_inv in H as (w2 & H1 & H). eapply release_stray; [exact H|]. clear H.
  apply obind_ok_inv in H1 as (w1 & E1 & H). eapply remove_stray in E1; [|exact S]. cbn zeta in H.
  apply obind_ok_inv in H as (c2 & E2 & H). eapply gc_stray; [exact H|]. cbn [fst].
  assert (N : l_next_id w1.1 <> n) by (destruct E1 as (_ & _ & _ & X); lia).
  match type of E2 with (if _ then Ok ?c else _) = _ => assert (Sc : stray n c) end.
  { eapply stray_of; [exact E1|..]; cbn; eauto. intros k' X. destruct (decide (k' = k)) as [->|Nk]; [rewrite lookup_insert in X; congruence|]. rewrite lookup_insert_ne in X by done. eauto. }
  destruct (l_lru _); [by injection E2 as <-|]. by eapply link_stray.
Qed.
End stray.

(** ** The aggregator *)
Section quota.
Variable debug : bool.
Variable ord : hash_order.
Variable md5 : string -> string.
Variable clk : nat -> Z.
Variable cf : quota_config.

Lemma quota_faithful fl n : faithful (OnCacheEntryDelete ord clk cf fl n) (p_quota_deleter ord clk cf fl n).
Proof.
  induction n as [|n IH]; [by split|]. split.
  - intros k a p c u c' u' R H. cbn [OnCacheEntryDelete p_quota_deleter fst snd] in *.
    apply obind_ok_inv in H as (e & E1 & H). rewrite E1. cbn [obind]. cbn zeta in *.
    assert (Ek : (if fl then false else negb (PShouldDrop clk cf e p)) = (if fl then false else negb (ShouldDrop clk cf e c))).
    { destruct fl; [done|]. unfold PShouldDrop, ShouldDrop. by rewrite (ok_now clk R). }
    rewrite Ek. assert (R1 : Ok_ (if fl then p else p_ticked p) (if fl then c else after_now c)) by (destruct fl; [done|by apply ok_tick]).
    destruct (if fl then false else negb (ShouldDrop clk cf e c)).
    + apply obind_ok_inv in H as ([c1 u1] & E2 & H). apply (insert_ok IH R1) in E2 as (p1 & -> & R2). cbn [obind fst snd] in *.
      apply obind_ok_inv in H as (e2 & E3 & H). rewrite E3. cbn [obind]. destruct (_ && _).
      * injection H as <- <-. rewrite (ok_now clk R2). eexists. split; [done|]. by apply ok_tick.
      * injection H as <- <-. by eexists.
    + apply obind_ok_inv in H as (u1 & E2 & H). rewrite E2. cbn [obind]. injection H as <- <-. by eexists.
  - intros k a c u c' u' i H S. cbn [OnCacheEntryDelete fst snd] in *.
    assert (T : forall c : lru nat, stray i c -> stray i (after_now c)) by (intros x X; eapply stray_of; [exact X|..]; cbn; eauto).
    apply obind_ok_inv in H as (e & E1 & H). cbn zeta in *.
    assert (S1 : stray i (if fl then c else after_now c)) by (destruct fl; [done|by apply T]).
    destruct (if fl then false else negb (ShouldDrop clk cf e c)).
    + apply obind_ok_inv in H as ([c1 u1] & E2 & H). destruct IH as [_ St]; eapply insert_stray with (n := i) in E2; [|exact St|exact S1]. cbn [fst] in E2.
      apply obind_ok_inv in H as (e2 & E3 & H). cbn [fst snd] in *. destruct (_ && _); injection H as <- <-; [by apply T|done].
    + apply obind_ok_inv in H as (u1 & E2 & H). by injection H as <- <-.
Qed.
Lemma flush_silent n : silent (OnCacheEntryDelete ord clk cf true n) (p_quota_deleter ord clk cf true n).
Proof.
  intros k v c u c' u' H. destruct n as [|n]; [done|]. cbn [OnCacheEntryDelete p_quota_deleter fst snd] in *.
  apply obind_ok_inv in H as (e & E1 & H). apply obind_ok_inv in H as (u1 & E2 & H). injection H as <- <-. split; [done|]. intros p. rewrite E1. cbn [obind]. by rewrite E2.
Qed.

Definition qrel (p : pquota_agg) (st : quota_agg) : Prop :=
  pqa_pool p = qg_pool st /\ pqa_flush_all p = qg_flush_all st /\ match pqa_cache p, qg_cache st with Some x, Some c => Ok_ x c | None, None => True | _, _ => False end.

Lemma qnew_ok st : NewQuotaAggregator ord clk cf = Ok st -> exists p, PNewQuotaAggregator ord clk cf = Ok p /\ qrel p st.
Proof.
  unfold NewQuotaAggregator, PNewQuotaAggregator. destruct (0 <? _); [|intros [= <-]; by eexists].
  intros (t & E1 & (w & E2 & E3)%obind_ok_inv)%obind_ok_inv. rewrite E1. cbn [obind]. destruct (new_ok (V := nat) (qp_entries (qf_options cf))) as (p & -> & Hp). cbn [obind].
  destruct w as [c u]. destruct (set_timeout_ok (quota_faithful false 2) Hp E2) as (p' & -> & Hp'). injection E3 as <-. eexists. split; [done|]. done.
Qed.
Lemma qstep_ok n call p st st' res : qrel p st -> qstep debug ord md5 clk cf n call st = Ok (st', res) -> exists p', p_qstep debug ord md5 clk cf n call p = Ok (p', res) /\ qrel p' st'.
Proof.
  destruct p as [x u0 f0], st as [c u f]. intros (E1 & E2 & Hx). cbn [pqa_pool qg_pool pqa_flush_all qg_flush_all pqa_cache qg_cache] in *. subst u0 f0.
  destruct call as [q|q r| |]; cbn [qstep p_qstep].
  - unfold Quota, PQuota. cbn [qg_cache qg_pool qg_flush_all pqa_cache pqa_pool pqa_flush_all]. destruct (negb _); [intros [= <- <-]; by eexists|].
    destruct (qr_operation q); [|intros [= <- <-]; by eexists]. destruct x as [x|], c as [c|]; try done; [|intros [= <- <-]; by eexists].
    intros ([[c1 u1] o] & E1 & H)%obind_ok_inv. destruct (lookup_ok (quota_faithful f n) Hx E1) as (x1 & -> & Hx1). cbn [obind fst snd] in *. destruct o as [a|].
    + apply obind_ok_inv in H as (e & E2 & H). rewrite E2. cbn [obind]. unfold PShouldRefresh. rewrite (ok_now clk Hx1). fold (ShouldRefresh clk cf e c1).
      pose proof (ok_tick Hx1) as Hx2. pose proof (ok_tick Hx2) as Hx3.
      assert (G : forall x2 c2 u2 e2, Ok_ x2 c2 ->
        (let! e := if is_positive e2 then QAggregate debug q e2 else Ok e2 in
         let! w := Release (OnCacheEntryDelete ord clk cf f n) clk (GenerateAllocateQuotaRequestSignature md5 q) a (c2, assign a e u2) in
         Ok (qfinish f SOk (Some (qe_response e)) w)) = Ok (st', res) -> exists p',
        (let! e := if is_positive e2 then QAggregate debug q e2 else Ok e2 in
         let! w := PRelease (p_quota_deleter ord clk cf f n) clk true (GenerateAllocateQuotaRequestSignature md5 q) a (x2, assign a e u2) in
         Ok (p_quota_finish f SOk (Some (qe_response e)) w)) = Ok (p', res) /\ qrel p' st').
      { intros x2 c2 u2 e2 R2 H2. apply obind_ok_inv in H2 as (e3 & E3 & H2). rewrite E3. cbn [obind]. apply obind_ok_inv in H2 as ([c3 u3] & E4 & H2).
        destruct (release_ok (quota_faithful f n) R2 E4) as (x4 & -> & Hx4). cbn [obind]. injection H2 as <- <-. by eexists. }
      destruct (negb (qe_in_flight e)); [|by eapply G]. destruct (ShouldRefresh clk cf e c1); [|by eapply G].
      cbn zeta. rewrite (ok_now clk Hx2). by eapply G.
    + apply obind_ok_inv in H as ([c2 u2] & E2 & H). cbn zeta. rewrite (ok_now clk Hx1). destruct (insert_ok (quota_faithful f n) (ok_tick Hx1) E2) as (x2 & -> & Hx2). cbn [obind fst snd] in *.
      apply obind_ok_inv in H as (e & E3 & H). rewrite E3. cbn [obind]. injection H as <- <-. by eexists.
  - unfold QCacheResponse, PQCacheResponse. cbn [qg_cache qg_pool qg_flush_all pqa_cache pqa_pool pqa_flush_all]. destruct x as [x|], c as [c|]; try done; [|intros [= <- <-]; by eexists].
    intros ([[c1 u1] o] & E1 & H)%obind_ok_inv. destruct (lookup_ok (quota_faithful f n) Hx E1) as (x1 & -> & Hx1). cbn [obind fst snd] in *. destruct o as [a|].
    + apply obind_ok_inv in H as (e & E2 & H). rewrite E2. cbn [obind]. apply obind_ok_inv in H as ([c2 u2] & E3 & H).
      destruct (release_ok (quota_faithful f n) Hx1 E3) as (x3 & -> & Hx3). cbn [obind]. injection H as <- <-. by eexists.
    + injection H as <- <-. by eexists.
  - unfold QFlush, PQFlush. cbn [qg_cache qg_pool qg_flush_all pqa_cache pqa_pool pqa_flush_all]. destruct x as [x|], c as [c|]; try done; [|intros [= <- <-]; by eexists].
    intros ([c1 u1] & E1 & H)%obind_ok_inv. destruct (expired_ok (quota_faithful f n) Hx E1) as (x1 & -> & Hx1). cbn [obind]. injection H as <- <-. by eexists.
  - unfold QFlushAll, PQFlushAll. cbn [qg_cache qg_pool qg_flush_all pqa_cache pqa_pool pqa_flush_all]. destruct x as [x|], c as [c|]; try done; [|intros [= <- <-]; by eexists].
    intros ([c1 u1] & E1 & H)%obind_ok_inv. destruct (remove_all_ok (@flush_silent n) Hx E1) as (x1 & -> & Hx1). cbn [obind]. injection H as <- <-. by eexists.
Qed.
Lemma qdestroy_ok n p st : qrel p st -> DestroyQuotaAggregator ord clk cf n st = Ok tt -> PDestroyQuota ord clk cf n p = Ok tt.
Proof.
  intros Hr. unfold DestroyQuotaAggregator, PDestroyQuota. intros ([st1 res] & E1 & E2)%obind_ok_inv.
  destruct (qstep_ok n QFlushAllC Hr E1) as (p' & E3 & _ & _ & Hx). cbn [p_qstep] in E3. rewrite E3. cbn [obind fst] in *.
  destruct (pqa_cache p') as [x|], (qg_cache st1) as [c|]; try done. by eapply destroy_same.
Qed.
Lemma quota_same st h : qreach debug ord md5 clk cf st h -> exists p, p_quota_history debug ord md5 clk cf p (qtold h) /\ qrel p st.
Proof.
  induction 1 as [st E|st h call st' res Hr (p & Hp & Rp) [n Hs]].
  - destruct (qnew_ok E) as (p & E1 & Hp). exists p. split; [|done]. by constructor.
  - destruct (qstep_ok n call Rp Hs) as (p' & E1 & Hp'). exists p'. split; [|done]. unfold qtold. rewrite fmap_app. econstructor; [exact Hp|]. by exists n.
Qed.
End quota.
