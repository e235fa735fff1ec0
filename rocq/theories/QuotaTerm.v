(** When the calls of the quota aggregator return, and when Quota recurses without end. *)
From Verif Require Import Base Proto Signature SignatureSpec OpAgg OpAggSpec Lru LruSpec LruSim Timeout TimeoutProofs TimeoutSign Agg QuotaAgg QuotaFuel QuotaSim QuotaStep QuotaStep2 QuotaTrace QuotaAggSpec QuotaCall QuotaInv QuotaMove QuotaLife QuotaAggClaims.
From stdpp Require Import gmap list.
Local Open Scope Z_scope.
Set Implicit Arguments.

Section spin.
Variable ord : hash_order.
Variable clk : nat -> Z.
Variable cf : quota_config.
Variables mx idle : Z.
Notation del := (OnCacheEntryDelete ord clk cf).
Notation Rep := (Rep mx idle).
Notation Shape := (Shape mx idle).
Notation doomed := (doomed clk cf).
Implicit Types (l lP : list cell) (L P : list node) (x y : cell) (c : lru nat) (u : pool quota_elem quota_request) (e : quota_elem).

(** The entry is not stale at the next [n] readings. *)
Definition keeps (tk n : nat) e : Prop := forall i, (tk <= i < tk + n)%nat -> doomed false i e = false.
Lemma keeps_later tk n tk' n' e : keeps tk n e -> (tk <= tk')%nat -> (tk' + n' <= tk + n)%nat -> keeps tk' n' e.
Proof. intros H ? ? i Hi. apply H. lia. Qed.

Lemma gc_held_out d n i P L2 c u J : Shape J c (P ++ L2) -> held_pins P -> last P.*1 = i -> gc d n i (c, u) = OutOfFuel \/ gc d n i (c, u) = Ok (c, u).
Proof.
  revert n i L2. induction P as [|[j e] P IH] using rev_ind; intros n i L2 S H Hi.
  - cbn in Hi. subst. destruct n as [|n]; [by left|]. right. cbn [gc]. by destruct (Overfull _).
  - rewrite last_ids in Hi. subst. destruct n as [|n]; [by left|]. cbn [gc]. destruct (Overfull _); [|by right]. cbn [fst].
    rewrite <- app_assoc in S. cbn in S. rewrite (@shape_load mx idle J c _ j e S) by set_solver. cbn [obind].
    rewrite (shape_prev _ _ _ _ S). cbn [obind].
    apply Forall_app in H as [H1 H2]. apply Forall_cons in H2 as [H2 _]. cbn in H2. rewrite H2. change (1 =? 0) with false. cbn [obind].
    eapply IH; [exact S|done|reflexivity].
Qed.

Lemma del_spin n k a e J c u P lP : Rep J c u P lP -> held_pins P -> Z.of_nat (length P) = mx ->
  p_vals u !! a = Some e -> a ∉ c_addr <$> lP -> (a < p_next u)%nat -> qe_signature e ∉ c_key <$> lP ->
  keeps (l_tick c) (2 * n) e -> del false n k a (c, u) = OutOfFuel.
Proof.
  revert k J c. induction n as [|n IH]; intros k J c R HP Hm Hv Ha Hlt Hk Hd; [done|]. cbn [OnCacheEntryDelete fst snd].
  rewrite (deref_some _ _ Hv). cbn [obind]. cbn zeta. unfold ShouldDrop, read_now.
  assert (expiration_interval_in_cycle cf <=? clk (l_tick c) - qe_last e = false) as -> by (apply (Hd (l_tick c)); lia). cbn [negb].
  assert (Rep J (after_now c) u P lP) as R1 by (eapply rep_cache; [|exact R]; apply shape_now, R).
  rewrite (@insert_eq mx idle clk _ _ J _ _ P) by (try apply R1; by rewrite (rep_keys R1)).
  pose proof (@rep_pushed clk mx idle J _ u P lP a e R1 Hv Ha Hlt Hk) as R2. set (p := (_, _) : node) in R2.
  assert (held_pins (p :: P)) as HP2 by (by constructor).
  match goal with |- context [gc ?d ?n ?i ?w] => destruct (@gc_held_out d n i (p :: P) [] w.1 u J) as [E|E]; [rewrite app_nil_r; apply R2|done|unfold list_tail; rewrite (sh_list (rep_shape R2)); done|..]; cbn [fst snd] in E; rewrite E end; [done|]. clear E.
  cbn [obind]. erewrite (@release_eq mx idle clk _ _ J _ _ []); [|exact (rep_shape R2)|done..]. cbn [app length].
  destruct (Z.ltb_spec mx (Z.of_nat (S (length P)))) as [_|]; [|lia].
  pose proof (@rep_unpinned mx idle J _ _ [] _ _ _ _ R2) as R3. cbn [app] in R3.
  rewrite (@remove_eq mx idle clk _ _ J _ u [] P (l_next_id (after_now c)) (set_pin 0 p.2)); [|apply R3|done].
  rewrite (@discard_eq mx idle clk _ _ J _ u [] P _ _); [|apply R3|done]. cbn [e_value set_pin p snd].
  destruct (@rep_taken clk mx idle J _ u [] P _ [] lP _ R3 eq_refl) as (R4 & _). cbn [app fst snd] in R4.
  rewrite (IH _ _ _ R4 HP Hm Hv Ha Hlt Hk); [done|]. eapply keeps_later; [exact Hd|cbn; lia..].
Qed.

Lemma del_full_spin n k x J c u P lP L' l' : Rep J c u (P ++ L') (lP ++ l') -> length P = length lP -> held_pins P -> free_pins L' ->
  Z.of_nat (length (P ++ L')) = mx ->
  p_vals u !! c_addr x = Some (c_elem x) -> c_addr x ∉ c_addr <$> (lP ++ l') -> (c_addr x < p_next u)%nat -> c_key x ∉ c_key <$> (lP ++ l') ->
  Forall (fun y => keeps (l_tick c) (2 * n) (c_elem y)) (x :: l') -> del false n k (c_addr x) (c, u) = OutOfFuel.
Proof.
  revert n k x J c u P lP L'. induction l' as [|y l' IH] using rev_ind; intros n k x J c u P lP L' R HP Pp Pf Hm Hv Ha Hlt Hk Hd.
  - assert (L' = []) as ->. { pose proof (rep_len R) as E. rewrite !app_length in E. cbn in E. destruct L'; [done|cbn in E; lia]. }
    rewrite !app_nil_r in *. apply Forall_cons in Hd as [Hd _]. by eapply del_spin.
  - assert (exists L1 p, L' = L1 ++ [p]) as (L1 & p & ->).
    { pose proof (rep_len R) as E. rewrite !app_length in E. cbn in E. destruct L' as [|p L1 _] using rev_ind; [cbn in E; lia|]. eauto. }
    destruct n as [|n]; [done|].
    assert (Rep J (after_now c) u (P ++ L1 ++ [p]) (lP ++ l' ++ [y])) as R1 by (eapply rep_cache; [|exact R]; apply shape_now, R).
    pose proof (@rep_pushed clk mx idle J _ u _ _ _ _ R1 Hv Ha Hlt Hk) as R2. set (p0 := (_, _) : node) in R2. set (x0 := Cell _ _ _) in R2.
    change (p0 :: P ++ L1 ++ [p]) with ((p0 :: P) ++ L1 ++ [p]) in R2. change (x0 :: lP ++ l' ++ [y]) with ((x0 :: lP) ++ l' ++ [y]) in R2.
    assert (length ((p0 :: P) ++ L1) = length ((x0 :: lP) ++ l')) as HLen.
    { pose proof (rep_len R2) as E. rewrite !app_length in *. cbn in *. lia. }
    rewrite !app_assoc in R2. destruct (@rep_taken clk mx idle J _ u _ [] p _ [] y R2 HLen) as (R3 & Ev & Hvy & Hay & Hlty & Hky).
    rewrite !(app_nil_r ((p0 :: P) ++ L1)) in R3. rewrite !(app_nil_r ((x0 :: lP) ++ l')) in R3, Hay, Hky.
    assert (length (p0 :: P) = length (x0 :: lP)) as HP3 by (cbn; lia).
    assert (held_pins (p0 :: P)) as Pp3 by (by constructor).
    apply Forall_app in Pf as [Pf1 Pf2]. apply Forall_cons in Pf2 as [Pf2 _].
    assert (Z.of_nat (length ((p0 :: P) ++ L1)) = mx) as Hm3 by (rewrite !app_length in *; cbn [length] in *; lia).
    apply Forall_cons in Hd as [Hdx Hd]. apply Forall_app in Hd as [Hd1 Hd2]. apply Forall_cons in Hd2 as [Hdy _].
    cbn [OnCacheEntryDelete fst snd]. rewrite (deref_some _ _ Hv). cbn [obind]. cbn zeta. unfold ShouldDrop, read_now.
    assert (expiration_interval_in_cycle cf <=? clk (l_tick c) - qe_last (c_elem x) = false) as -> by (apply (Hdx (l_tick c)); lia). cbn [negb].
    rewrite (@insert_eq mx idle clk _ _ J _ _ (P ++ L1 ++ [p])) by (try apply R1; by rewrite (rep_keys R1)).
    unfold list_tail at 1. rewrite (sh_list (rep_shape R2)), last_ids. destruct n as [|n1] eqn:En; [done|]. rewrite <- En in *. rewrite En at 2. cbn [gc fst]. rewrite (shape_len (rep_shape R2)).
    destruct (Z.ltb_spec mx (Z.of_nat (length (((p0 :: P) ++ L1) ++ [p])))) as [_|]; [|rewrite !app_length in *; cbn [length] in *; lia].
    destruct p as [i e]. cbn [fst snd] in *. rewrite (@shape_load mx idle J _ _ i e (rep_shape R2)) by set_solver. cbn [obind].
    rewrite (shape_prev _ _ _ _ (rep_shape R2)). cbn [obind]. rewrite Pf2. change (0 =? 0) with true.
    rewrite (@shape_find mx idle J _ _ i e (rep_shape R2)) by set_solver. rewrite bool_decide_true by done. cbn [obind assert_].
    rewrite (@discard_eq mx idle clk _ _ J _ u _ _ _ _ (rep_shape R2) Pf2). rewrite Ev.
    rewrite (IH n (e_key e) y _ _ _ _ _ _ R3 HP3 Pp3 Pf1 Hm3 Hvy Hay Hlty Hky); [done|].
    constructor; [eapply keeps_later; [exact Hdy|cbn; lia..]|]. eapply Forall_impl; [exact Hd1|]. intros z Hz. eapply keeps_later; [exact Hz|cbn; lia..].
Qed.
Lemma insert_spin m n a e c u L l : Rep [] c u L l -> free_pins L -> Z.of_nat (length L) = mx -> 0 < mx ->
  p_vals u !! a = Some e -> a ∉ c_addr <$> l -> (a < p_next u)%nat -> qe_signature e ∉ c_key <$> l ->
  Forall (fun y => keeps (S (l_tick c)) (2 * m) (c_elem y)) l -> Lru.Insert (del false m) clk n (qe_signature e) a 1 (c, u) = OutOfFuel.
Proof.
  intros R Hp Hfull Hmx Hv Ha Hlt Hk Hd.
  rewrite (@insert_eq mx idle clk _ _ [] _ _ L) by (try apply R; by rewrite (rep_keys R)).
  pose proof (@rep_pushed clk mx idle [] _ u L l a e R Hv Ha Hlt Hk) as R2. set (p0 := (_, _) : node) in R2.
  destruct n as [|n]; [done|].
  assert (exists L1 p, L = L1 ++ [p]) as (L1 & p & ->) by (destruct L as [|p L1 _] using rev_ind; [cbn in Hfull; lia|eauto]).
  assert (exists l1 y, l = l1 ++ [y]) as (l1 & y & ->).
  { pose proof (rep_len R) as E. rewrite app_length in E. cbn in E. destruct l as [|y l1 _] using rev_ind; [cbn in E; lia|eauto]. }
  set (x0 := Cell _ _ _) in *. change (p0 :: L1 ++ [p]) with ((p0 :: L1) ++ [p]) in R2. change (x0 :: l1 ++ [y]) with ((x0 :: l1) ++ [y]) in R2.
  assert (length (p0 :: L1) = length (x0 :: l1)) as HLen.
  { pose proof (rep_len R2) as E. rewrite !app_length in *. cbn in *. lia. }
  destruct (@rep_taken clk mx idle [] _ u _ [] p _ [] y R2 HLen) as (R3 & Ev & Hvy & Hay & Hlty & Hky).
  rewrite !(app_nil_r (p0 :: L1)) in R3. rewrite !(app_nil_r (x0 :: l1)) in R3, Hay, Hky.
  apply Forall_app in Hp as [Pf1 Pf2]. apply Forall_cons in Pf2 as [Pf2 _].
  assert (Z.of_nat (length ([p0] ++ L1)) = mx) as Hm3 by (rewrite !app_length in *; cbn [length] in *; lia).
  assert (held_pins [p0]) as Pp3 by (repeat constructor).
  apply Forall_app in Hd as [Hd1 Hd2]. apply Forall_cons in Hd2 as [Hdy _].
  pose proof (@del_full_spin m (e_key p.2) y _ _ u [p0] [x0] L1 l1 R3 eq_refl Pp3 Pf1 Hm3 Hvy Hay Hlty Hky) as D.
  unfold list_tail. rewrite (sh_list (rep_shape R2)), last_ids.
  cbn [gc fst]. rewrite (shape_len (rep_shape R2)).
  destruct (Z.ltb_spec mx (Z.of_nat (length ((p0 :: L1) ++ [p])))) as [_|]; [|rewrite !app_length in *; cbn [length] in *; lia].
  destruct p as [i e0]. cbn [fst snd] in *. rewrite (@shape_load mx idle [] _ _ i e0 (rep_shape R2)) by set_solver. cbn [obind].
  rewrite (shape_prev _ _ _ _ (rep_shape R2)). cbn [obind]. rewrite Pf2. change (0 =? 0) with true.
  rewrite (@shape_find mx idle [] _ _ i e0 (rep_shape R2)) by set_solver. rewrite bool_decide_true by done. cbn [obind assert_].
  rewrite (@discard_eq mx idle clk _ _ [] _ u _ _ _ _ (rep_shape R2) Pf2). rewrite Ev.
  rewrite D; [done|]. by constructor.
Qed.

Lemma purge_ticks fl olds tk it : ((purge ord clk cf fl olds tk it).1.2 <= tk + 3 * length olds)%nat.
Proof.
  revert tk it. induction olds as [|x olds IH]; intros tk it; cbn [purge length]; [cbn; lia|]. destruct (QuotaStep.doomed _ _ _ _ _).
  - etrans; [apply IH|]. destruct fl; cbn; lia.
  - cbn zeta. unfold after_reinsert. destruct (pending _); cbn [fst snd]; (etrans; [apply IH|]); destruct fl; cbn; lia.
Qed.
Lemma expire_ticks fl l tk it : ((expire ord clk cf idle fl l tk it).1.2 <= tk + 1 + 3 * length l)%nat.
Proof.
  unfold expire. destruct (idle <? 0); cbn [fst snd]; [lia|]. etrans; [apply purge_ticks|]. rewrite rev_length. pose proof (filter_length (fun x => c_time x < clk tk - idle) l). lia.
Qed.
End spin.

Section term.
Variable debug : bool.
Variable ord : hash_order.
Variable md5 : string -> string.
Variable clk : nat -> Z.
Variable cf : quota_config.
Notation mx := (qp_entries (qf_options cf)).
Notation idle := (idle_of cf).
Hypothesis Hclk : proper_clock clk.
Notation sg := (qsig md5).
Notation Good := (Good clk cf idle).
Notation moved := (moved debug ord md5 clk cf idle).
Notation qreach := (qreach debug ord md5 clk cf).
Notation qrun := (qrun debug ord md5 clk cf).
Notation returns := (returns debug ord md5 clk cf).
Notation qstep := (qstep debug ord md5 clk cf).
Notation doomed := (doomed clk cf).
Implicit Types (l : list cell) (x y : cell) (T : list (cell * fate)) (p : cell * fate) (e : quota_elem) (q : quota_request) (ev : quota_event) (st : quota_agg) (h : list quota_event).
Let Hmono := proj1 Hclk.
Let Hpos := proj2 Hclk.

Lemma qsize_good c u fl l : Good c u l -> qsize (QuotaAgg (Some c) u fl) = length l.
Proof.
  intros G. pose proof (good_keys G) as N. pose proof G as (L & R & _). pose proof (rep_shape R) as S. unfold qsize. cbn [qg_cache].
  assert (dom (l_table c) = list_to_set (c_key <$> l) :> gset string) as E.
  { apply set_eq. intros k. rewrite elem_of_dom, elem_of_list_to_set. rewrite <- (rep_keys R). split.
    - intros [i Hi]. apply (sh_table S) in Hi as (e & He & <-). apply elem_of_list_fmap. exists (i, e). done.
    - intros ([i e] & -> & He)%elem_of_list_fmap. exists i. apply (sh_table S). by exists e. }
  rewrite <- size_dom, E, size_list_to_set, fmap_length by done. done.
Qed.

(** ** Nothing stale in a full cache *)
Lemma passes_kept fl lo hi l l' its T : passes ord clk cf fl lo hi l l' its T -> Forall (fun x => forall i, (lo <= i)%nat -> (fl = false -> i < hi)%nat -> doomed fl i (c_elem x) = false) l -> length l' = length l.
Proof.
  intros (H1 & H2 & _ & H4 & _) K. rewrite <- H1 in K. rewrite <- H1, H2, fmap_length. clear H1 H2. induction T as [|p T IH]; [done|].
  rewrite fmap_cons in K. apply Forall_cons in K as [K1 K2]. apply Forall_cons in H4 as [F1 F2]. specialize (IH F2 K2). cbn [omap list_omap].
  unfold after, fate_ok in *. destruct p.2 as [|i j|i j k|i] eqn:E; cbn [length]; try (by rewrite IH). destruct F1 as (D & Hi & Hh). by rewrite K1 in D.
Qed.

Lemma quota_spin n q c u l : 0 < mx -> Good c u l -> well_addressed cf q -> sg q ∉ c_key <$> l -> Z.of_nat (length l) = mx ->
  Forall (fun x => qe_last (c_elem x) <= clk (l_tick c) /\ keeps clk cf (l_tick c) (5 * (length l + n) + 20) (c_elem x)) l ->
  Quota debug ord md5 clk cf n q (QuotaAgg (Some c) u false) = OutOfFuel.
Proof.
  intros Hmx G [Hs Ho] Hk Hfull K. set (m := (n + length l + 8)%nat).
  assert (Quota debug ord md5 clk cf m q (QuotaAgg (Some c) u false) = OutOfFuel) as E.
  2: { destruct (quota_upto debug ord md5 clk cf q (QuotaAgg (Some c) u false) (n:=n) (m:=m) ltac:(unfold m; lia)) as [H|H]; [done|]. by rewrite H, E. }
  destruct (@expired ord clk cf idle Hclk false m c u l G ltac:(unfold m; lia)) as (c1 & u1 & L1 & E & R & P & Len & T & Tk & It & Nx & Ll). cbn zeta in *.
  pose proof (expire_ticks ord clk cf idle false l (l_tick c) []) as Ht.
  destruct G as (L & R0 & P0 & Len0 & T0). destruct (@expire_trace ord clk cf idle Hmono false l (l_tick c) [] Hpos T0) as (tr & (its & _ & Pa) & _).
  unfold Quota. rewrite Hs, String.eqb_refl. cbn [negb]. destruct (qr_operation q) as [o|]; [|done]. cbn [qg_cache qg_pool qg_flush_all]. clear Ho.
  fold (qsig md5 q). set (r := expire _ _ _ _ _ _ _ _) in *.
  assert (length r.1.1 = length l) as Hl.
  { eapply passes_kept; [exact Pa|]. eapply Forall_impl; [exact K|]. intros x [_ Hx] i Hi Hj. apply Hx. specialize (Hj eq_refl). lia. }
  assert (sg q ∉ c_key <$> r.1.1) as Hin.
  { intros (y & Ey & Hy)%elem_of_list_fmap. apply Hk. destruct (passes_from Pa Hy) as (p & Hp & Ha & Hin). rewrite Ey, (after_key clk p Ha). by apply elem_of_list_fmap_1. }
  assert (Forall (fun y => keeps clk cf (S (S r.1.2)) (2 * m) (c_elem y)) r.1.1) as K1.
  { apply Forall_forall. intros y Hy. destruct (passes_from Pa Hy) as (p & Hp & Ha & Hin'). pose proof (passes_ok Pa Hp) as Ok.
    rewrite Forall_forall in K. destruct (K _ Hin') as [K2 K3].
    assert (l_tick c <= r.1.2)%nat as Htr by apply Pa.
    assert (keeps clk cf (S (S r.1.2)) (2 * m) (c_elem p.1)) as K4 by (eapply keeps_later; [exact K3|unfold m; lia..]).
    unfold after, fate_ok in *. destruct p.2 as [|i j|i j k|i] eqn:Ef; try done; injection Ha as <-; try done. cbn [c_elem].
    intros i' Hi'. specialize (K4 i' Hi'). unfold QuotaStep.doomed in *. change (qe_last (refreshed (clk k) (c_elem p.1))) with (clk k). apply Z.leb_gt in K4. apply Z.leb_gt.
    destruct Ok as (_ & _ & ? & ? & ?). assert (clk (l_tick c) <= clk k) by (apply Hmono; lia). lia. }
  rewrite (@lookup_miss clk mx idle _ _ _ _ _ _ _ _ E R Hin). cbn [obind fst snd]. unfold alloc. cbn [fst snd].
  set (e := QuotaElem _ _ _ _ _ _). set (u2 := Pool _ _ _).
  assert (p_next u1 ∉ c_addr <$> r.1.1) as Ha by (intros H%(rep_fresh R); lia).
  assert (Rep mx idle [] (after_now c1) u2 L1 r.1.1) as R2.
  { eapply rep_cache; [apply shape_now; apply R|]. pose proof (rep_keys R) as K'. destruct R as [S F A B]. constructor; try done.
    - clear -F B Ha. induction F as [|p x La la H F IH]; [constructor|]. constructor.
      + eapply same_other; [|exact H]. intros a ->. cbn. rewrite lookup_insert_ne; [done|]. intros Eq. apply Ha. rewrite Eq. cbn. constructor.
      + apply IH; set_solver.
    - intros a Hin'. cbn. apply B in Hin'. lia. }
  assert (p_vals u2 !! p_next u1 = Some e) as Hv by (cbn; by rewrite lookup_insert).
  pose proof (@insert_spin ord clk cf mx idle m m (p_next u1) e (after_now c1) u2 L1 r.1.1 R2 P) as I.
  change (qe_signature e) with (sg q) in I. rewrite I; try done.
  - rewrite (rep_len R). lia.
  - cbn. lia.
  - cbn [after_now set_tick l_tick]. rewrite Tk. done.
Qed.

Lemma run_flag fl tk nx l st h : qrun fl tk nx l st h -> Exists (fun ev => qv_call ev = QFlushAllC) h -> fl = true.
Proof.
  induction 1 as [c u G Hn|fl tk nx l st h call res fl' l' c' u' Hr IH M G']; [by intros ?%Exists_nil|].
  intros [H|H]%Exists_app; [|apply Exists_cons in H as [H|H%Exists_nil]; [|done]; cbn in H; subst; by inversion M].
  specialize (IH H). subst. by inversion M.
Qed.

(** As long as no cached entry is stale, a call for another signature on a full cache needs more nested calls than any bound. *)
Lemma full_spins st h q n : qreach st h -> Forall (fun ev => qv_call ev <> QFlushAllC) h -> 0 < mx -> Z.of_nat (qsize st) = mx -> well_addressed cf q ->
  ~ qcached st (sg q) ->
  (forall k t i, last_refresh st k = Some t -> (qreadings st <= i < qreadings st + (5 * (qsize st + n) + 20))%nat -> clk i - t < expiration_interval_in_cycle cf) ->
  qstep n (QQuota q) st = OutOfFuel.
Proof.
  intros Hr Hf Hm Hfull Hw Hc Hk. destruct (reach_run Hclk Hm Hr) as (fl & tk & nx & l & R). destruct (qrun_good R) as (c & u & -> & G & <- & <-).
  pose proof (run_well Hclk R) as W. assert (fl = false) as ->.
  { destruct fl; [|done]. pose proof (rw_flag W eq_refl) as (ev & Hev & E)%Exists_exists. rewrite Forall_forall in Hf. by apply Hf in Hev. }
  pose proof (qsize_good false G) as Hl. rewrite Hl in *. cbn [QuotaAggSpec.qstep]. apply quota_spin with (l := l); try done.
  - intros (x & Ex & Hx)%elem_of_list_fmap. apply Hc. intros E. assert (entry (QuotaAgg (Some c) u false) (sg q) = Some (c_addr x)) as E'.
    { apply (entry_cell false (sg q) (c_addr x) G). by exists x. } by rewrite E in E'.
  - apply Forall_forall. intros x Hx. pose proof (rw_last W) as La. rewrite Forall_forall in La. destruct (La x Hx) as (i & Hi & Ei). split.
    + rewrite Ei. apply Hmono. lia.
    + intros j Hj. unfold QuotaStep.doomed. apply Z.leb_gt. eapply (Hk (c_key x)); [|cbn [qreadings qg_cache]; exact Hj].
      unfold last_refresh. by rewrite (proj2 (cell_data false G Hx)).
Qed.

(** Whatever the clock does later: the call does not return. *)
Lemma squeeze_none olds tk it : Forall (fun x => keeps clk cf tk (2 * length olds) (c_elem x)) olds -> squeeze ord clk cf false olds tk it = None.
Proof.
  revert tk it. induction olds as [|x olds IH]; intros tk it K; [done|]. apply Forall_cons in K as [K1 K2]. cbn [squeeze]. rewrite K1 by (cbn [length]; lia).
  rewrite IH; [done|]. eapply Forall_impl; [exact K2|]. intros y Ky. eapply keeps_later; [exact Ky|cbn [length rd]; lia..].
Qed.
Lemma quota_never n q c u l v : 0 < mx -> Good c u l -> well_addressed cf q -> sg q ∉ c_key <$> l -> Z.of_nat (length l) = mx ->
  Forall (fun x => qe_last (c_elem x) <= clk (l_tick c) /\ keeps clk cf (l_tick c) (5 * length l + 20) (c_elem x)) l ->
  Quota debug ord md5 clk cf n q (QuotaAgg (Some c) u false) <> Ok v.
Proof.
  intros Hmx G Hw Hk Hfull K. set (m := (n + length l + 8)%nat).
  assert (forall v, Quota debug ord md5 clk cf m q (QuotaAgg (Some c) u false) <> Ok v) as E.
  2: { destruct (quota_upto debug ord md5 clk cf q (QuotaAgg (Some c) u false) (n:=n) (m:=m) ltac:(unfold m; lia)) as [H|H]; [by rewrite H|]. rewrite H. apply E. }
  clear v. pose proof (expire_ticks ord clk cf idle false l (l_tick c) []) as Ht.
  pose proof G as (L & R0 & P0 & Len0 & T0). destruct (@expire_trace ord clk cf idle Hmono false l (l_tick c) [] Hpos T0) as (tr & (its & _ & Pa) & _).
  destruct (@quota_sim debug ord md5 clk cf idle Hclk Hmx m q c u false l G Hw ltac:(unfold m; lia)) as [(a & x & b & El & Kx & _)|[Hin Sm]]; cbn zeta in *; set (r := expire _ _ _ _ _ _ _ _) in *.
  { exfalso. apply Hk. assert (x ∈ r.1.1) as Hy by (rewrite El; set_solver). destruct (passes_from Pa Hy) as (p & Hp & Ha & Hi). rewrite <- Kx, (after_key clk p Ha). by apply elem_of_list_fmap_1. }
  assert (length r.1.1 = length l) as Hl.
  { eapply passes_kept; [exact Pa|]. eapply Forall_impl; [exact K|]. intros x [_ Hx] i Hi Hj. apply Hx. specialize (Hj eq_refl). lia. }
  assert (Forall (fun y => keeps clk cf (S (S r.1.2)) (2 * length l) (c_elem y)) r.1.1) as K1.
  { apply Forall_forall. intros y Hy. destruct (passes_from Pa Hy) as (p & Hp & Ha & Hin'). pose proof (passes_ok Pa Hp) as Ok.
    rewrite Forall_forall in K. destruct (K _ Hin') as [K2 K3].
    assert (l_tick c <= r.1.2)%nat as Htr by apply Pa.
    assert (keeps clk cf (S (S r.1.2)) (2 * length l) (c_elem p.1)) as K4 by (eapply keeps_later; [exact K3|lia..]).
    unfold after, fate_ok in *. destruct p.2 as [|i j|i j k|i] eqn:Ef; try done; injection Ha as <-; try done. cbn [c_elem].
    intros i' Hi'. specialize (K4 i' Hi'). unfold QuotaStep.doomed in *. change (qe_last (refreshed (clk k) (c_elem p.1))) with (clk k). apply Z.leb_gt in K4. apply Z.leb_gt.
    destruct Ok as (_ & _ & ? & ? & ?). assert (clk (l_tick c) <= clk k) by (apply Hmono; lia). lia. }
  unfold insert_new in Sm. destruct (Z.ltb_spec (Z.of_nat (length r.1.1)) mx) as [|_]; [lia|]. rewrite squeeze_none in Sm; [exact Sm|].
  rewrite rev_length, Hl. apply Forall_forall. intros y Hy. rewrite elem_of_list_In, <- in_rev, <- elem_of_list_In in Hy. rewrite Forall_forall in K1. by apply K1.
Qed.
Lemma full_never st h q n r : qreach st h -> Forall (fun ev => qv_call ev <> QFlushAllC) h -> 0 < mx -> Z.of_nat (qsize st) = mx -> well_addressed cf q ->
  ~ qcached st (sg q) ->
  (forall k t i, last_refresh st k = Some t -> (qreadings st <= i < qreadings st + (5 * qsize st + 20))%nat -> clk i - t < expiration_interval_in_cycle cf) ->
  qstep n (QQuota q) st <> Ok r.
Proof.
  intros Hr Hf Hm Hfull Hw Hc Hk. destruct (reach_run Hclk Hm Hr) as (fl & tk & nx & l & R). destruct (qrun_good R) as (c & u & -> & G & <- & <-).
  pose proof (run_well Hclk R) as W. assert (fl = false) as ->.
  { destruct fl; [|done]. pose proof (rw_flag W eq_refl) as (ev & Hev & E)%Exists_exists. rewrite Forall_forall in Hf. by apply Hf in Hev. }
  pose proof (qsize_good false G) as Hl. rewrite Hl in *. cbn [QuotaAggSpec.qstep]. apply quota_never with (l := l); try done.
  - intros (x & Ex & Hx)%elem_of_list_fmap. apply Hc. intros E. assert (entry (QuotaAgg (Some c) u false) (sg q) = Some (c_addr x)) as E'.
    { apply (entry_cell false (sg q) (c_addr x) G). by exists x. } by rewrite E in E'.
  - apply Forall_forall. intros x Hx. pose proof (rw_last W) as La. rewrite Forall_forall in La. destruct (La x Hx) as (i & Hi & Ei). split.
    + rewrite Ei. apply Hmono. lia.
    + intros j Hj. unfold QuotaStep.doomed. apply Z.leb_gt. eapply (Hk (c_key x)); [|cbn [qreadings qg_cache]; exact Hj].
      unfold last_refresh. by rewrite (proj2 (cell_data false G Hx)).
Qed.

(** ** The other calls return *)
Lemma other_calls st h call : qreach st h -> (forall q, call <> QQuota q) -> exists r, returns call st r.
Proof.
  intros Hr Hq. destruct (Z.le_gt_cases mx 0) as [Hm|Hm].
  - destruct (reach_off Hm Hr) as [E _]. destruct call as [q|q r| |]; [by destruct (Hq q)|..]; eexists; exists 0%nat; cbn [QuotaAggSpec.qstep]; unfold QCacheResponse, QFlush, QFlushAll; rewrite E; reflexivity.
  - destruct (reach_run Hclk Hm Hr) as (fl & tk & nx & l & R). destruct (qrun_good R) as (c & u & -> & G & <- & <-). set (m := (length l + 8)%nat).
    destruct call as [q|q r| |]; [by destruct (Hq q)|..].
    + destruct (response_sim ord md5 Hclk Hm q r fl G (le_n _)) as (c' & u' & l' & E2 & _). eexists. by exists m.
    + destruct (flush_sim ord Hclk fl G (le_n _)) as (c' & u' & E2 & _). eexists. by exists m.
    + destruct (@flush_all_sim ord clk cf idle Hm m c u fl l G ltac:(unfold m; lia)) as (c' & u' & E2 & _). eexists. by exists m.
Qed.
Lemma destroy_returns st h : qreach st h -> exists n, DestroyQuotaAggregator ord clk cf n st = Ok tt.
Proof.
  intros Hr. destruct (Z.le_gt_cases mx 0) as [Hm|Hm].
  - destruct (reach_off Hm Hr) as [E _]. exists 0%nat. unfold DestroyQuotaAggregator, QFlushAll. rewrite E. done.
  - destruct (reach_run Hclk Hm Hr) as (fl & tk & nx & l & R). destruct (qrun_good R) as (c & u & -> & G & <- & <-). exists 1%nat.
    destruct (@flush_all_sim ord clk cf idle Hm 1%nat c u fl l G ltac:(lia)) as (c' & u' & E2 & G2 & _). unfold DestroyQuotaAggregator. rewrite E2. cbn [obind fst qg_cache].
    destruct G2 as (L & R2 & _). assert (L = []) as -> by (pose proof (rep_len R2) as E; by destruct L). pose proof (rep_shape R2) as S.
    unfold DestroyCache. assert (l_table c' = ∅) as ->.
    { apply map_empty. intros k. destruct (l_table c' !! k) as [i|] eqn:E; [|done]. apply (sh_table S) in E as (e & He & _). by apply elem_of_nil in He. }
    rewrite bool_decide_true by done. cbn [assert_ obind].
    rewrite bool_decide_true; [done|]. apply (sh_defer S).
Qed.
Lemma new_returns : int32_min <= qp_refresh_ms (qf_options cf) <= int32_max -> exists st, qreach st [].
Proof.
  intros Hi. assert (exists o, cycles_of_ms (qp_refresh_ms (qf_options cf)) = Ok o) as [o Eo].
  { destruct (Z.le_gt_cases 0 (qp_refresh_ms (qf_options cf))) as [H|H].
    - destruct (timeout_accurate _ (conj H (proj2 Hi))) as (n & E & _). eauto.
    - eexists. exact (seconds_negative _ (proj1 Hi) H). }
  unfold NewQuotaAggregator. destruct (0 <? mx) eqn:Em.
  - destruct o as [i|].
    + pose proof (cycles_nonneg _ _ Eo) as Hi'. eexists. constructor. unfold NewQuotaAggregator. rewrite Em, Eo. cbn [obind].
      unfold SetTimeout, NewCache. cbn [l_idle fst snd]. change (0 <=? -1) with false. cbn [andb]. unfold DiscardIdle.
      destruct (i <? 0) eqn:Ei; [apply Z.ltb_lt in Ei; lia|].
      cbn [idle_loop after_now set_tick set_idle set_lru fst snd l_list list_tail last l_tick obind]. reflexivity.
    + eexists. constructor. unfold NewQuotaAggregator. rewrite Em, Eo. cbn [obind]. reflexivity.
  - eexists. constructor. unfold NewQuotaAggregator. by rewrite Em.
Qed.

(** ** When Quota returns *)
Definition drawn h x : Prop := exists g, qbuilt debug (qe_agg (c_elem x)) g /\ g `sublist_of` asked h.
Lemma drawn_bare h x : qe_agg (c_elem x) = None -> drawn h x.
Proof. intros E. exists []. split; [by rewrite E|apply sublist_nil_l]. Qed.
Lemma drawn_pass fl lo hi l l' its T h : passes ord clk cf fl lo hi l l' its T -> Forall (drawn h) l -> Forall (drawn h) l'.
Proof.
  intros P F. apply Forall_forall. intros y Hy. destruct (passes_from P Hy) as (p & Hp & Ha & Hin). rewrite Forall_forall in F. specialize (F _ Hin).
  unfold after in Ha. destruct p.2; try done; injection Ha as <-; try done. by apply drawn_bare.
Qed.
Lemma drawn_more h ev x : drawn h x -> drawn (h ++ [ev]) x.
Proof. intros (g & B & S). exists g. split; [done|]. unfold asked. rewrite bind_app. etrans; [exact S|]. apply sublist_inserts_r. done. Qed.
Lemma looked_drawn h e a t tk its x : drawn h x -> e = c_elem x -> drawn h (Cell a t (looked ord clk cf e tk its).1.1).
Proof.
  intros D ->. unfold looked. destruct (qe_in_flight _); [done|]. destruct (_ <=? _); [|done]. by apply drawn_bare.
Qed.
Lemma run_drawn fl tk nx l st h : qrun fl tk nx l st h -> Forall (drawn h) l.
Proof.
  induction 1 as [c u G Hn|fl tk nx l st h call res fl' l' c' u' Hr IH M G']; [constructor|].
  set (ev := QuotaEvent call res tk (l_tick c') (QuotaAgg (Some c') u' fl')).
  assert (forall l0, Forall (drawn h) l0 -> Forall (drawn (h ++ [ev])) l0) as More.
  { intros l0 F. eapply Forall_impl; [exact F|]. intros x. apply drawn_more. }
  assert (asked (h ++ [ev]) = asked h ++ asked [ev]) as As by (unfold asked; by rewrite bind_app).
  inversion M; subst.
  - by apply More.
  - parts. pose proof (drawn_pass P IH) as F. rewrite Forall_app, Forall_cons in F. destruct F as (Fa & Fx & Fb).
    rewrite Forall_app, Forall_cons. split_and!; [by apply More| |by apply More].
    pose proof (looked_drawn (c_addr x) (c_time x) tk1 its Fx eq_refl) as (g & B & Sb). cbn [c_elem] in B.
    unfold counted in CE. destruct (is_positive _); [|injection CE as <-; apply drawn_more; by exists g].
    exists (g ++ [qop_get (qr_operation q)]). split; [cbn [c_elem]; by eapply qbuilt_more|]. rewrite As. by apply sublist_app.
  - parts. rewrite PE. constructor; [by apply drawn_bare|]. apply More. eapply drawn_pass; [exact P2|]. by eapply drawn_pass.
  - parts. pose proof (drawn_pass P IH) as F. rewrite Forall_app, Forall_cons in F. destruct F as (Fa & Fx & Fb).
    rewrite Forall_app, Forall_cons. split_and!; [by apply More| |by apply More]. unfold set_quota_response. destruct (0 <? _); [by apply drawn_bare|].
    apply drawn_more. done.
  - parts. apply More. by eapply drawn_pass.
  - parts. apply More. by eapply drawn_pass.
  - constructor.
Qed.

Lemma omap_gone {A B} (f : A -> option B) (xs : list A) (z : A) : z ∈ xs -> f z = None -> (length (omap f xs) < length xs)%nat.
Proof.
  intros Hz E. induction Hz as [z xs|z z' xs Hz IH]; cbn [omap list_omap length].
  - rewrite E. pose proof (omap_length f xs). lia.
  - specialize (IH E). destruct (f z'); cbn [length]; lia.
Qed.
Lemma passes_gone fl lo hi l l' its T x : passes ord clk cf fl lo hi l l' its T -> x ∈ l ->
  (exists y, y ∈ l' /\ c_key y = c_key x) \/ (length l' < length l)%nat.
Proof.
  intros P Hx. destruct (passes_to P Hx) as (p & Hp & <-). destruct P as (H1 & H2 & _). destruct (after clk p) as [y|] eqn:E.
  - left. exists y. split; [|by eapply after_key]. rewrite H2. apply elem_of_list_omap. by exists p.
  - right. rewrite <- H1, H2, fmap_length. by eapply omap_gone.
Qed.
Lemma room_inserts c u fl l h q : 0 < mx -> Good c u l -> qrun fl (l_tick c) (p_next u) l (QuotaAgg (Some c) u fl) h -> room md5 clk cf (QuotaAgg (Some c) u fl) h q ->
  let r := expire ord clk cf idle fl l (l_tick c) [] in sg q ∉ c_key <$> r.1.1 -> insert_new ord clk cf mx fl r.1.1 (p_next u) (fresh_elem md5 q (clk r.1.2)) (S r.1.2) r.2 <> None.
Proof.
  intros Hm' G R Hroom r Hk. pose proof (run_flag R) as Fl. unfold room in Hroom. rewrite (qsize_good fl G) in Hroom.
  pose proof G as (L & R0 & P0 & Len0 & T0). destruct (@expire_trace ord clk cf idle Hmono fl l (l_tick c) [] Hpos T0) as (tr & (its & _ & Pa) & _ & Ll & _). fold r in Pa, Ll.
  unfold insert_new. destruct (Z.ltb_spec (Z.of_nat (length r.1.1)) mx) as [|Hge]; [done|].
  assert (Exists (fun x => doomed fl (S (S r.1.2)) (c_elem x) = true) (rev r.1.1)) as Ex.
  { destruct Hroom as [Hc|[Hlt|[(k & t & Hl & Ht)|Hfa]]].
    - exfalso. unfold qcached in Hc. destruct (entry _ _) as [a|] eqn:Ea; [|done]. apply (entry_cell fl (sg q) a G) in Ea as (x & Hx & Kx & _).
      destruct (passes_gone Pa Hx) as [(y & Hy & Ky)|?]; [|lia]. apply Hk. rewrite <- Kx, <- Ky. by apply elem_of_list_fmap_1.
    - lia.
    - unfold last_refresh, recorded in Hl. destruct (entry _ _) as [a|] eqn:Ea; [|done]. pose proof Ea as (x & Hx & Kx & Ax)%(entry_cell fl k a G).
      assert (p_vals u !! a = Some (c_elem x)) as Hv by (pose proof (proj2 (cell_data fl G Hx)) as Hc; unfold recorded in Hc; rewrite Kx, Ea in Hc; exact Hc).
      cbn [qg_pool] in Hl. rewrite Hv in Hl. injection Hl as <-. cbn [qreadings qg_cache] in Ht.
      assert (forall i, (l_tick c <= i)%nat -> doomed fl i (c_elem x) = true) as Dm.
      { intros i Hi. unfold QuotaStep.doomed. destruct fl; [done|]. apply Z.leb_le. pose proof (Hmono Hi). lia. }
      destruct (passes_to Pa Hx) as (p & Hp & Ep). pose proof (passes_ok Pa Hp) as Ok. pose proof Pa as (_ & H2 & _ & _ & Hle).
      destruct (after clk p) as [y|] eqn:Ey.
      + assert (y = x) as ->.
        { unfold after, fate_ok in *. destruct p.2 as [|i j|i j k'|i]; try done; [injection Ey; congruence|..]; destruct Ok as (Dn & _ & ? & _); rewrite Ep, Dm in Dn by lia; done. }
        assert (x ∈ r.1.1) as Hy by (rewrite H2; apply elem_of_list_omap; by exists p).
        apply Exists_exists. exists x. split; [by rewrite elem_of_list_In, <- in_rev, <- elem_of_list_In|]. apply Dm. lia.
      + exfalso. assert (length r.1.1 < length l)%nat; [|lia]. destruct Pa as (H1 & _). rewrite <- H1, H2, fmap_length. by eapply omap_gone.
    - rewrite (Fl Hfa) in *. destruct r.1.1 as [|y l1]; [cbn in Hge; lia|]. apply Exists_exists. exists y. split; [|done]. rewrite elem_of_list_In, <- in_rev, <- elem_of_list_In. constructor. }
  pose proof (@squeeze_some ord clk cf Hmono fl _ (S (S r.1.2)) r.2 Ex) as Sq. by destruct (squeeze _ _ _ _ _ _ _) as [[[[? ?] ?] ?]|].
Qed.
Lemma quota_returns st h q : qreach st h -> (well_addressed cf q -> 0 < mx -> room md5 clk cf st h q) ->
  (exists r, returns (QQuota q) st r) \/
  (exists f r, (f :: r) `sublist_of` asked h ++ [qop_get (qr_operation q)] /\ forall o, quota_aggregate debug ord f r <> Ok o).
Proof.
  intros Hr Hroom. destruct (addressed_dec cf q) as [Hw|Hw].
  2: { left. eexists. exists 0%nat. cbn [QuotaAggSpec.qstep]. by rewrite not_addressed. }
  destruct (Z.le_gt_cases mx 0) as [Hm|Hm].
  { left. destruct (reach_off Hm Hr) as [E _]. eexists. exists 0%nat. cbn [QuotaAggSpec.qstep]. unfold Quota. rewrite E. destruct Hw as [-> Ho]. rewrite String.eqb_refl. cbn [negb]. by destruct (qr_operation q). }
  specialize (Hroom Hw ltac:(lia)). assert (0 < mx) as Hm' by lia. destruct (reach_run Hclk Hm' Hr) as (fl & tk & nx & l & R). destruct (qrun_good R) as (c & u & -> & G & <- & <-).
  pose proof (run_drawn R) as D.
  destruct (quota_sim debug ord md5 Hclk Hm' fl G Hw (le_n _)) as [(a & x & b & El & Hk & Sm)|[Hk Sm]]; cbn zeta in Sm.
  - destruct G as (L & R0 & P0 & Len0 & T0). destruct (@expire_trace ord clk cf idle Hmono fl l (l_tick c) [] Hpos T0) as (tr & (its & _ & Pa) & _).
    pose proof (drawn_pass Pa D) as D'. set (r := expire _ _ _ _ _ _ _ _) in *. rewrite El, Forall_app, Forall_cons in D'. destruct D' as (_ & Dx & _).
    pose proof (looked_drawn (c_addr x) (c_time x) r.1.2 r.2 Dx eq_refl) as (g & B & Sb). cbn [c_elem] in B.
    destruct (counted _ _ _) as [e| | |] eqn:Ec; [left; destruct Sm as (c' & u' & E & _); eexists; eexists; exact E|..].
    all: right; unfold counted in Ec; destruct (is_positive _); [|done].
    all: assert (forall e', QAggregate debug q (looked ord clk cf (c_elem x) r.1.2 r.2).1.1 <> Ok e') as Bad by (rewrite Ec; done).
    all: destruct (qbuilt_fails debug ord _ _ _ B Bad) as (f & r' & E & U); exists f, r'; split; [|done]; rewrite <- E; by apply sublist_app.
  - left. pose proof (room_inserts Hm' G R Hroom Hk) as Hi.
    destruct (insert_new _ _ _ _ _ _ _ _ _ _) as [[[l' tk'] it']|]; [|done]. destruct Sm as (c' & u' & E & _). eexists; eexists; exact E.
Qed.
End term.
