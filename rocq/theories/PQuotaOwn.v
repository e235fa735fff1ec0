(** The quota aggregator leaks no object: each is owned by an element of the cache, except the one that is being handed
    to the deleter or inserted. *)
From Verif Require Import Base Proto Signature OpAgg Lru LruSpec LruSim Timeout Agg QuotaAgg QuotaAggSpec PAggProofs.
From stdpp Require Import gmap list.
Local Open Scope Z_scope.
Set Implicit Arguments.
Notation upool := (pool quota_elem quota_request).
Notation qworld := (lru nat * upool)%type.

(** Every object but those of [E] is owned by an element that is not in [X]; the elements of [X] are old. *)
Definition owning (X E : list nat) (h : gmap nat (elem nat)) (nx : nat) (vals : gmap nat quota_elem) : Prop :=
  (forall n, n ∈ X -> (n < nx)%nat) /\ (forall n e, h !! n = Some e -> (n < nx)%nat) /\
  (forall b, is_Some (vals !! b) -> b ∈ E \/ exists n e, n ∉ X /\ h !! n = Some e /\ e_value e = b).
Definition own (X E : list nat) (w : qworld) : Prop := owning X E (l_heap w.1) (l_next_id w.1) (p_vals w.2).

Lemma own_store X E i e e' h nx vals : owning X E h nx vals -> h !! i = Some e -> e_value e' = e_value e -> owning X E (<[i := e']> h) nx vals.
Proof.
  intros (H1 & H2 & H3) Hi Ev. split_and!; [done|..].
  - intros n x. destruct (decide (n = i)) as [->|N]; [intros _; by eapply H2|rewrite lookup_insert_ne by done; apply H2].
  - intros b Hb. destruct (H3 b Hb) as [|(n & x & Hn & Hx & Ex)]; [by left|]. right. destruct (decide (n = i)) as [->|N].
    + exists i, e'. rewrite lookup_insert. split_and!; [done..|]. congruence.
    + exists n, x. by rewrite lookup_insert_ne.
Qed.
Lemma own_sub X E h nx vals vals' : (forall b, is_Some (vals' !! b) -> is_Some (vals !! b)) -> owning X E h nx vals -> owning X E h nx vals'.
Proof. intros Hs (H1 & H2 & H3). split_and!; [done..|]. intros b Hb. by apply H3, Hs. Qed.

Section ops.
Variable del : string -> nat -> qworld -> outcome qworld.
Variable clk : nat -> Z.
Variable ord : hash_order.
Hypothesis Hdel : forall X E k a w w', del k a w = Ok w' -> own X (a :: E) w -> own X E w'.
Ltac bi H := let a := fresh "a" in let E := fresh "E" in apply obind_ok_inv in H as (a & E & H).

Lemma load_own i (c : lru nat) e : load i c = Ok e -> l_heap c !! i = Some e.
Proof. unfold load. destruct (l_heap c !! i); congruence. Qed.
Lemma discard_own X E i w w' : Discard del i w = Ok w' -> own X E w -> own X E w'.
Proof.
  unfold Discard. intros H (H1 & H2 & H3). bi H. apply load_own in E0. bi H. bi H.
  assert (O : own (i :: X) E a1).
  { eapply Hdel; [exact E2|]. split_and!; [|done|].
    - intros n [->|Hn]%elem_of_cons; [by eapply H2|by apply H1].
    - intros b Hb. cbn [snd fst set_units l_heap] in *. destruct (decide (b = e_value a)) as [->|N]; [left; left|].
      destruct (H3 b Hb) as [|(n & x & Hn & Hx & Ex)]; [left; by right|]. right. exists n, x. split; [|done]. apply not_elem_of_cons. split; [|done]. intros ->. congruence. }
  destruct (l_heap a1.1 !! i) as [e1|] eqn:E3; [|done]. injection H as <-. destruct O as (O1 & O2 & O3). split_and!; cbn [fst snd set_heap l_heap l_next_id] in *.
  - intros n Hn. apply O1. by right.
  - intros n x Hx. apply lookup_delete_Some in Hx as [_ Hx]. by eapply O2.
  - intros b Hb. destruct (O3 b Hb) as [|(n & x & Hn & Hx & Ex)]; [by left|]. right. apply not_elem_of_cons in Hn as [N1 N2]. exists n, x. by rewrite lookup_delete_ne.
Qed.
Lemma remove_elem_own X E i w w' : RemoveElem del i w = Ok w' -> own X E w -> own X E w'.
Proof.
  unfold RemoveElem. intros H O. bi H. destruct (0 <? e_pin a); [|by eapply discard_own; [exact H|]].
  destruct (l_defer _ !! e_key a) as [[|h t]|]; [done| |]; by injection H as <-.
Qed.
Lemma remove_own X E k w w' : Remove del k w = Ok w' -> own X E w -> own X E w'.
Proof. unfold Remove. destruct (l_table w.1 !! k) as [i|]; [|by intros [= <-]]. intros H O. by eapply remove_elem_own; [exact H|]. Qed.
Lemma gc_own X E m : forall o w w', gc del m o w = Ok w' -> own X E w -> own X E w'.
Proof.
  induction m as [|m IH]; intros o w w' H O; [done|]. cbn [gc] in H. destruct (Overfull _); [|by injection H as <-]. destruct o as [i|]; [|by injection H as <-].
  bi H. bi H. bi H. eapply IH; [exact H|]. destruct (e_pin a =? 0); [|by injection E2 as <-]. bi E2. by eapply discard_own; [exact E2|].
Qed.
Lemma idle_own X E m t : forall l o w w', idle_loop del m t l o w = Ok w' -> own X E w -> own X E w'.
Proof.
  induction m as [|m IH]; intros l o w w' H O; [done|]. cbn [idle_loop] in H. destruct o as [i|]; [|by injection H as <-].
  bi H. destruct (_ <? t); [|by injection H as <-]. bi H. bi H. bi H. bi H. eapply IH; [exact H|]. by eapply remove_own; [exact E4|].
Qed.
Lemma expired_own X E n w w' : RemoveExpiredEntries del clk n w = Ok w' -> own X E w -> own X E w'.
Proof.
  unfold RemoveExpiredEntries, DiscardIdle. destruct (0 <=? _); [|by intros [= <-]]. destruct (_ <? 0); [by intros [= <-]|]. intros H O. by eapply idle_own; [exact H|].
Qed.
Lemma lookup_own X E n b k w w' r : LookupWithOptions del clk n b k w = Ok (w', r) -> own X E w -> own X E w'.
Proof.
  unfold LookupWithOptions. intros H O. bi H. eapply expired_own in E0; [|exact O]. destruct (l_table a.1 !! k) as [i|]; [|by injection H as <- <-].
  bi H. apply load_own in E1. cbn zeta in H. injection H as <- <-. unfold own. cbn [fst snd].
  assert (G : forall c : lru nat, l_heap c = l_heap a.1 -> l_next_id c = l_next_id a.1 -> owning X E (l_heap (store i (set_pin (e_pin a0 + 1) a0) c)) (l_next_id (store i (set_pin (e_pin a0 + 1) a0) c)) (p_vals a.2)).
  { intros c G1 G2. cbn [store set_heap l_heap l_next_id]. rewrite G1, G2. by eapply own_store. }
  apply G; by destruct (e_pin a0 =? 0); [destruct (_ && _)|].
Qed.
Lemma link_own i (c c' : lru nat) : LinkFront i c = Ok c' -> l_heap c' = l_heap c /\ l_next_id c' = l_next_id c.
Proof. unfold LinkFront. destruct (decide _); [done|]. by intros [= <-]. Qed.
Lemma release_cached_own X E b k v w w' : release_cached del clk b k v w = Ok w' -> own X E w -> own X E w'.
Proof.
  unfold release_cached. destruct (l_table w.1 !! k) as [i|]; [|done]. intros H O. bi H. apply load_own in E0. bi H. bi H. cbn zeta in H.
  set (touch := l_lru w.1 && b) in *. set (e1 := if touch then _ else a) in *.
  match type of H with context [store i ?e ?c] => set (e2 := e) in *; set (c0 := c) in * end.
  assert (O1 : own X E (store i e2 c0, w.2)).
  { unfold own. cbn [fst snd store set_heap l_heap l_next_id]. assert (l_heap c0 = l_heap w.1 /\ l_next_id c0 = l_next_id w.1) as [-> ->] by (unfold c0; by destruct touch).
    eapply own_store; [exact O|exact E0|]. unfold e2, e1. by destruct touch. }
  clearbody e2. destruct (_ =? 0); [|by injection H as <-]. apply obind_ok_inv in H as (c2 & E9 & H).
  assert (O2 : own X E (c2, w.2)).
  { destruct touch; [|by injection E9 as <-]. apply link_own in E9 as [G1 G2]. unfold own. cbn [fst snd]. rewrite G1, G2. exact O1. }
  destruct (Overfull _); [|by injection H as <-]. by eapply remove_own; [exact H|].
Qed.
Lemma release_own X E b k v w w' : ReleaseWithOptions del clk b k v w = Ok w' -> own X E w -> own X E w'.
Proof.
  unfold ReleaseWithOptions. destruct (l_defer w.1 !! k) as [t|]; [|apply release_cached_own]. intros H O. apply obind_ok_inv in H as (found & E0 & H).
  destruct found as [i|]; [|by eapply release_cached_own]. bi H. apply load_own in E1. bi H. cbn zeta in H.
  assert (O1 : forall e, e_value e = e_value a -> own X E (store i e w.1, w.2)) by (intros e Ee; by eapply own_store).
  destruct (_ =? 0); [|injection H as <-; by apply O1]. eapply discard_own; [exact H|]. specialize (O1 (set_pin (e_pin a - 1) a) eq_refl).
  assert (G : forall c : lru nat, l_heap (undefer k t i c) = l_heap c /\ l_next_id (undefer k t i c) = l_next_id c).
  { intros c. unfold undefer. destruct t as [|h t]; [done|]. by destruct (decide _); [destruct (rev t)|]. }
  unfold own in *. cbn [fst snd] in *. destruct (G (store i (set_pin (e_pin a - 1) a) w.1)) as [-> ->]. exact O1.
Qed.
Lemma insert_own X E m k v x w w' : Lru.Insert del clk m k v x w = Ok w' -> own X (v :: E) w -> own X E w'.
Proof.
  unfold Lru.Insert, InsertPinned. intros H O. apply obind_ok_inv in H as (w2 & H1 & H). eapply release_own; [exact H|]. clear H.
  apply obind_ok_inv in H1 as (w1 & E1 & H). eapply remove_own in E1; [|exact O]. cbn zeta in H.
  apply obind_ok_inv in H as (c2 & E2 & H). eapply gc_own; [exact H|].
  match type of E2 with (if _ then Ok ?c else _) = _ => assert (Oc : own X E (c, w1.2)) end.
  { destruct E1 as (H1 & H2 & H3). split_and!; cbn.
    - intros n Hn. apply H1 in Hn. lia.
    - intros n e. destruct (decide (n = l_next_id w1.1)) as [->|N]; [lia|]. rewrite lookup_insert_ne by done. intros He. apply H2 in He. lia.
    - intros b Hb. destruct (decide (b = v)) as [->|N].
      + right. exists (l_next_id w1.1). eexists. rewrite lookup_insert. split; [|done]. intros Hn. apply H1 in Hn. lia.
      + destruct (H3 b Hb) as [[->|Hb']%elem_of_cons|(n & e & Hn & He & Ee)]; [done|by left|]. right. exists n, e. rewrite lookup_insert_ne; [done|]. apply H2 in He. lia. }
  destruct (l_lru _); [by injection E2 as <-|]. apply link_own in E2 as [G1 G2]. unfold own in *. cbn [fst snd] in *. by rewrite G1, G2.
Qed.
Lemma remove_each_own X E ids : forall w w', remove_each del ids w = Ok w' -> own X E w -> own X E w'.
Proof.
  induction ids as [|[k id] ids IH]; intros w w' H O; cbn [remove_each] in H; [by injection H as <-|]. bi H. eapply IH; [exact H|]. by eapply remove_elem_own.
Qed.
Lemma remove_all_own X E w w' : RemoveAll del ord w = Ok w' -> own X E w -> own X E w'.
Proof. unfold RemoveAll. intros H O. bi H. injection H as <-. eapply remove_each_own in E0; [exact E0|exact O]. Qed.
End ops.

Section quota.
Variable debug : bool.
Variable ord : hash_order.
Variable md5 : string -> string.
Variable clk : nat -> Z.
Variable cf : quota_config.

Lemma assign_own X E c a e (u : upool) e0 : p_vals u !! a = Some e0 -> own X E (c, u) -> own X E (c, assign a e u).
Proof.
  intros Ha. apply own_sub. intros b. cbn. destruct (decide (b = a)) as [->|N]; [by rewrite Ha|]. by rewrite lookup_insert_ne.
Qed.
Lemma deref_own {A B} a (u : pool A B) e : Agg.deref a u = Ok e -> p_vals u !! a = Some e.
Proof. unfold Agg.deref. destruct (p_vals u !! a); congruence. Qed.
Lemma delete_own fl n : forall X E k a w w', OnCacheEntryDelete ord clk cf fl n k a w = Ok w' -> own X (a :: E) w -> own X E w'.
Proof.
  induction n as [|n IH]; intros X E k a w w' H O; [done|]. cbn [OnCacheEntryDelete] in H. apply obind_ok_inv in H as (e & E1 & H). cbn zeta in H.
  assert (O1 : own X (a :: E) (if fl then w.1 else after_now w.1, w.2)) by (by destruct fl).
  destruct (if fl then false else _).
  - apply obind_ok_inv in H as ([c1 u1] & E2 & H). eapply insert_own in E2; [|exact IH|exact O1].
    apply obind_ok_inv in H as (e2 & E3 & H). apply deref_own in E3. cbn [fst snd] in *. destruct (_ && _); injection H as <-; [|done]. eapply assign_own; [exact E3|exact E2].
  - apply obind_ok_inv in H as (u1 & E2 & H). injection H as <-. unfold free in E2. destruct (p_vals w.2 !! a); [|done]. injection E2 as <-.
    destruct O1 as (O1 & O2 & O3). split_and!; [done..|]. cbn [snd fst p_vals] in *. intros b Hb. destruct (decide (b = a)) as [->|N]; [rewrite lookup_delete in Hb; by destruct Hb|].
    rewrite lookup_delete_ne in Hb by done. destruct (O3 b Hb) as [[->|?]%elem_of_cons|?]; [done|by left|by right].
Qed.

(** Each object of the aggregator is owned by an element of its cache. *)
Definition all_owned (st : quota_agg) : Prop := match qg_cache st with Some c => own [] [] (c, qg_pool st) | None => p_vals (qg_pool st) = ∅ end.
Lemma new_owned st : NewQuotaAggregator ord clk cf = Ok st -> all_owned st.
Proof.
  unfold NewQuotaAggregator. destruct (0 <? _); [|by intros [= <-]]. intros (t & E1 & (w & E2 & E3)%obind_ok_inv)%obind_ok_inv. injection E3 as <-.
  unfold all_owned. cbn [qg_cache qg_pool]. assert (O : own [] [] w); [|by destruct w].
  assert (O0 : forall c : lru nat, l_heap c = ∅ -> own [] [] (c, Pool ∅ 0%nat [] : upool)).
  { intros c Hc. split_and!; cbn; [intros n Hn; by apply elem_of_nil in Hn|intros n e; by rewrite Hc|intros b Hb; rewrite lookup_empty in Hb; by destruct Hb]. }
  unfold SetTimeout in E2. destruct t as [t|]; [|injection E2 as <-; by apply O0]. destruct (_ && _); [done|]. unfold DiscardIdle in E2. destruct (t <? 0); [injection E2 as <-; by apply O0|].
  eapply idle_own; [apply delete_own|exact E2|]. by apply O0.
Qed.
Lemma step_owned n call st st' res : qstep debug ord md5 clk cf n call st = Ok (st', res) -> all_owned st -> all_owned st'.
Proof.
  destruct st as [c u f]. unfold all_owned at 1. cbn [qg_cache qg_pool]. intros H O. destruct call as [q|q r| |]; cbn [qstep] in H.
  - unfold Quota in H. destruct (negb _); [by injection H as <- <-|]. destruct (qr_operation q); [|by injection H as <- <-]. cbn [qg_cache qg_pool qg_flush_all] in H.
    destruct c as [c|]; [|by injection H as <- <-]. apply obind_ok_inv in H as ([[c1 u1] o] & E1 & H). eapply lookup_own in E1; [|apply delete_own|exact O]. cbn [fst snd] in *. destruct o as [a|].
    + apply obind_ok_inv in H as (e & E2 & H). apply deref_own in E2. match type of H with context [let '(_, _) := ?x in _] => destruct x as [[c2 u2] e2] eqn:E3 end.
      assert (O2 : own [] [] (c2, u2) /\ p_vals u2 = p_vals u1).
      { destruct (negb _); [|by injection E3 as <- <- <-]. destruct (ShouldRefresh _ _ _ _); by injection E3 as <- <- <-. }
      destruct O2 as [O2 Ev]. apply obind_ok_inv in H as (e3 & E4 & H). apply obind_ok_inv in H as ([c4 u4] & E5 & H). injection H as <- <-.
      eapply release_own in E5; [exact E5|apply delete_own|]. eapply assign_own; [by rewrite Ev|done].
    + apply obind_ok_inv in H as ([c2 u2] & E2 & H). apply obind_ok_inv in H as (e & E3 & H). injection H as <- <-.
      eapply insert_own in E2; [exact E2|apply delete_own|]. destruct E1 as (O1 & O2 & O3). split_and!; [done..|]. intros b Hb. cbn in Hb. destruct (decide (b = p_next u1)) as [->|N]; [left; left|].
      rewrite lookup_insert_ne in Hb by done. destruct (O3 b Hb) as [?|?]; [left; by right|by right].
  - unfold QCacheResponse in H. cbn [qg_cache qg_pool qg_flush_all] in H. destruct c as [c|]; [|by injection H as <- <-].
    apply obind_ok_inv in H as ([[c1 u1] o] & E1 & H). eapply lookup_own in E1; [|apply delete_own|exact O]. cbn [fst snd] in *. destruct o as [a|]; [|by injection H as <- <-].
    apply obind_ok_inv in H as (e & E2 & H). apply deref_own in E2. apply obind_ok_inv in H as ([c2 u2] & E3 & H). injection H as <- <-.
    eapply release_own in E3; [exact E3|apply delete_own|]. by eapply assign_own.
  - unfold QFlush in H. cbn [qg_cache qg_pool qg_flush_all] in H. destruct c as [c|]; [|by injection H as <- <-].
    apply obind_ok_inv in H as ([c1 u1] & E1 & H). injection H as <- <-. eapply expired_own in E1; [exact E1|apply delete_own|exact O].
  - unfold QFlushAll in H. cbn [qg_cache qg_pool qg_flush_all] in H. destruct c as [c|]; [|by injection H as <- <-].
    apply obind_ok_inv in H as ([c1 u1] & E1 & H). injection H as <- <-. eapply remove_all_own in E1; [exact E1|apply delete_own|exact O].
Qed.
Lemma reach_owned st h : qreach debug ord md5 clk cf st h -> all_owned st.
Proof. induction 1 as [st E|st h call st' res Hr IH [n Hs]]; [by apply new_owned|by eapply step_owned]. Qed.
End quota.
