(** The claims about the cache, proved from the list view (proof-internal vocabulary). *)
From stdpp Require Import gmap.
From Verif Require Import Base Proto Lru LruSim LruOps LruOps2 LruSpec LruInv LruBooks LruStep.
Local Open Scope Z_scope.
Set Implicit Arguments.
Local Arguments sum_Z : simpl never.
Local Arguments dead : simpl never.

Section lproofs.
Context {V : Type} `{!EqDecision V}.
Implicit Types (c : lru V) (s : ideal V) (e : elem V) (b : books V) (o : op V).
Variable clk : nat -> Z.
Variable ord : hash_order.
Hypothesis clock : proper_clock clk.
Notation Inv := (Inv clk).

(** ** The size bound *)
Definition Bound s : Prop := total s <= q_max s \/ Forall (fun e => 0 < e_pin e) (cached_elems s).

Lemma rep_pos c s : Rep c s -> Forall (fun e => 0 <= e_pin e /\ 0 <= e_units e) (all_elems s).
Proof. intros (L & P & D & A). apply (ab_pos (proj1 A)). Qed.
Lemma units_pos (l : list (elem V)) : Forall (fun e => 0 <= e_pin e /\ 0 <= e_units e) l -> 0 <= sum_Z (e_units <$> l).
Proof. induction 1 as [|x l [_ H] _ IH]; [done|]. csimpl. rewrite sum_Z_cons. lia. Qed.
Lemma total_perm s (l : list (elem V)) : all_elems s ≡ₚ l -> total s = sum_Z (e_units <$> l).
Proof. intros E. unfold total. apply sum_Z_perm. by rewrite E. Qed.

Lemma bound_leave c s gs s' : Rep c s -> leave s gs s' -> Bound s -> Bound s'.
Proof.
  intros R L B. pose proof (rep_pos R) as F. pose proof (leave_all L) as EA.
  destruct B as [B|B].
  - left. rewrite (lv_max L). rewrite (total_perm s EA), fmap_app, sum_Z_app in B. rewrite EA in F. apply Forall_app in F as [F _].
    apply units_pos in F. unfold total. lia.
  - right. rewrite (lv_cached L) in B. by apply Forall_app in B as [_ B].
Qed.
Lemma evict_bound mx tot (r : list (elem V)) : Forall (fun e => 0 <= e_pin e) r ->
  tot - sum_Z (e_units <$> (evict mx tot r).2) <= mx \/ Forall (fun e => 0 < e_pin e) (evict mx tot r).1.
Proof.
  intros F. revert tot. induction F as [|x r Hx F IH]; intros tot; cbn [evict]; [right; constructor|].
  destruct (mx <? tot) eqn:E; [|apply Z.ltb_ge in E; left; cbn; change (sum_Z []) with 0; lia].
  destruct (e_pin x =? 0) eqn:Ep; cbn [fst snd].
  - csimpl. rewrite sum_Z_cons. destruct (IH (tot - e_units x)) as [H|H]; [left; lia|by right].
  - apply Z.eqb_neq in Ep. destruct (IH tot) as [H|H]; [by left|]. right. constructor; [lia|done].
Qed.
Lemma bound_evict c s : Rep c s -> Bound (i_evict s).
Proof.
  intros R. pose proof (rep_pos R) as F. pose proof (leave_all (leave_evict s)) as EA. rewrite <- r_evict_dead in EA.
  destruct (@evict_bound (q_max s) (total s) (rev (q_lst s))) as [H|H].
  - apply Forall_forall. intros x Hx. rewrite elem_of_list_In, <- in_rev, <- elem_of_list_In in Hx. rewrite Forall_forall in F. apply F.
    unfold all_elems. apply elem_of_app. by left.
  - left. assert (Et : total s = sum_Z (e_units <$> r_evict s) + total (i_evict s)) by (rewrite (total_perm s EA), fmap_app, sum_Z_app; done).
    change (q_max (i_evict s)) with (q_max s). unfold r_evict in Et. lia.
  - right. unfold cached_elems. cbn [i_evict with_lists q_lst q_pin]. apply Forall_app. split; [|apply (rep_pin_pos R)].
    apply Forall_forall. intros x Hx. rewrite elem_of_list_In, <- in_rev, <- elem_of_list_In in Hx. rewrite Forall_forall in H. by apply H.
Qed.
Lemma retouch_total s e e' s' : retouch s e e' s' -> total s' = total s.
Proof.
  intros T. destruct (retouch_all T) as (R & E1 & E2 & _). rewrite (total_perm s E1), (total_perm s' E2). csimpl. by rewrite !sum_Z_cons, (rt_units T).
Qed.
Lemma bound_retouch s e e' s' : retouch s e e' s' -> (Forall (fun x => 0 < e_pin x) (cached_elems s) -> total s <= q_max s \/ 0 < e_pin e') -> Bound s -> Bound s'.
Proof.
  intros T H [B|B]; [left; by rewrite (retouch_total T), (rt_max T)|].
  destruct (H B) as [X|X]; [left; by rewrite (retouch_total T), (rt_max T)|]. right.
  destruct (rt_perm T) as (R & E1 & E2). rewrite E1 in B. rewrite E2. inversion B; subst. by constructor.
Qed.
Lemma goes_pinned s e : goes e s = true -> Bound s -> Forall (fun x => 0 < e_pin x) (cached_elems s).
Proof. unfold goes. intros H [B|B]; [|done]. apply andb_true_iff in H as [_ H]. apply Z.ltb_lt in H. lia. Qed.
Lemma bound_release c s e : Rep c s -> e ∈ cached_elems s -> 0 < e_pin e -> Bound s -> Bound (i_release clk e s).
Proof.
  intros R H Hp B. destruct (unpin_retouch clk R H Hp) as [T _]. destruct (release_leave clk R H Hp) as (L & _ & G1 & G2).
  destruct (goes e s) eqn:Eg.
  - right. pose proof (goes_pinned _ Eg B) as F. rewrite (G1 eq_refl) in L. pose proof (lv_cached L) as EC.
    destruct (rt_perm T) as (R' & E1 & E2). rewrite E2 in EC. cbn in EC. apply Permutation_cons_inv in EC.
    rewrite E1 in F. rewrite <- EC. by inversion F.
  - unfold i_release. rewrite Eg. eapply bound_retouch; [exact T| |done]. intros F. unfold goes in Eg.
    destruct (e_pin e =? 1) eqn:Ep; cbn in Eg.
    + apply Z.ltb_ge in Eg. by left.
    + apply Z.eqb_neq in Ep. right. unfold released, unpinned. destruct (q_lru s); cbn; lia.
Qed.

Lemma bound_undefer c s e : Rep c s -> e ∈ q_def s -> Bound s -> Bound (i_undefer e s).
Proof.
  intros R H [B|B]; [left|right].
  - destruct (undefer_perm R H) as (R' & ED & E1 & E2). pose proof (rep_pos R) as F.
    assert (X : forall x, total (with_lists (q_lst s) (q_pin s) x s) = sum_Z (e_units <$> q_lst s ++ q_pin s) + sum_Z (e_units <$> x)).
    { intros x. unfold total, all_elems. cbn [with_lists q_lst q_pin q_def]. by rewrite app_assoc, fmap_app, sum_Z_app. }
    assert (Y : total s = sum_Z (e_units <$> q_lst s ++ q_pin s) + (e_units e + sum_Z (e_units <$> R'))).
    { unfold total, all_elems. rewrite app_assoc, fmap_app, sum_Z_app. f_equal. rewrite ED. csimpl. by rewrite sum_Z_cons. }
    assert (Z0 : 0 <= e_units e). { rewrite Forall_forall in F. apply F. unfold all_elems. rewrite !elem_of_app. auto. }
    unfold i_undefer in *. destruct (e_pin e =? 1) eqn:Ep; cbn [with_lists q_max q_def] in *; rewrite X.
    + apply Z.eqb_eq in Ep. rewrite (E1 Ep). lia.
    + apply Z.eqb_neq in Ep. rewrite (E2 Ep). csimpl. rewrite sum_Z_cons. cbn. lia.
  - unfold i_undefer. by destruct (e_pin e =? 1).
Qed.

Lemma bound_step s b o r es s' : Inv s b -> legal b o -> sim clk o s r es s' -> Bound s -> Bound s' /\ q_lru s' = q_lru s.
Proof.
  intros I Hl Hs B. pose proof (lawful_legal o I Hl) as Hw. destruct (iv_shape I) as [c R].
  destruct o as [k v u|k v u|k|k v|k| | | | |n|k v u|t]; cbn [sim lawful] in *.
  - destruct Hs as (He & -> & -> & ->). destruct Hw as [Hv Hu]. pose proof (inv_insert clock k I Hu Hv) as I1. destruct (iv_shape I1) as [c1 R1].
    split.
    + eapply bound_release; [exact R1|done|cbn; lia|]. assert (exists c2, Rep c2 (i_insert1 clk k v u s)) as [c2 R2]; [|by eapply bound_evict].
      pose proof (inv_removed clock k I) as I0. eapply iv_shape, (inv_new clock (s := i_remove k s)); [exact I0|done| |].
      * intros H. apply elem_of_list_fmap in H as (e & -> & H). by apply in_removed in H as [_ H].
      * intros H. apply Hv. rewrite (removed_perm k s), fmap_app. apply elem_of_app. by right.
    + assert (X : forall e s0, q_lru (i_release clk e s0) = q_lru s0); [|rewrite X; apply insert1_tick].
      intros e s0. unfold i_release, i_unpin. destruct (goes e s0), (q_lru s0) eqn:E, (e_pin e =? 1); done.
  - destruct Hs as (-> & -> & ->). destruct Hw as [Hv Hu]. split; [|apply insert1_tick].
    assert (exists c2, Rep c2 (i_insert1 clk k v u s)) as [c2 R2]; [|by eapply bound_evict].
    pose proof (inv_removed clock k I) as I0. eapply iv_shape, (inv_new clock (s := i_remove k s)); [exact I0|done| |].
    + intros H. apply elem_of_list_fmap in H as (e & -> & H). by apply in_removed in H as [_ H].
    + intros H. apply Hv. rewrite (removed_perm k s), fmap_app. apply elem_of_app. by right.
  - destruct Hs as (-> & Hs). pose proof (inv_expired clock I) as I1. destruct (iv_shape I1) as [c1 R1].
    pose proof (bound_leave R (leave_expire clk s) B) as B1. pose proof (lv_lru (leave_expire clk s)) as El.
    destruct Hs as [(e & He & <- & -> & ->)|(Hk & -> & ->)]; [|done].
    destruct (pin_retouch R1 He) as [T _]. split; [|by rewrite (rt_lru T)].
    eapply bound_retouch; [exact T| |done]. intros F. right. cbn. pose proof (rep_pos R1) as F2. rewrite Forall_forall in F2.
    assert (0 <= e_pin e); [|lia]. apply F2. unfold all_elems. rewrite app_assoc. apply elem_of_app. by left.
  - destruct Hs as (-> & e & <- & <- & Hp & [(He & -> & ->)|(He & -> & ->)]).
    + split; [by eapply bound_undefer|]. unfold i_undefer. by destruct (e_pin e =? 1).
    + split; [by eapply bound_release|]. unfold i_release, i_unpin. destruct (goes e s), (q_lru s) eqn:E, (e_pin e =? 1); done.
  - destruct Hs as (-> & -> & ->). split; [|done]. eapply bound_leave; [exact R|apply leave_remove|done].
  - destruct Hs as (-> & gs & Eg & -> & ->). split; [|done]. eapply bound_leave; [exact R|by apply leave_all_gone|done].
  - destruct Hs as (-> & -> & ->). split; [|done]. eapply bound_leave; [exact R|apply leave_unpinned|done].
  - destruct Hs as (-> & Ee & ->). split; [|done]. eapply bound_leave; [exact R|exact (proj1 (clear_leave Hw (iv_shape I) Ee))|done].
  - destruct Hs as (-> & -> & ->). split; [|apply (lv_lru (leave_expire clk s))]. eapply bound_leave; [exact R|apply leave_expire|done].
  - destruct Hs as (-> & -> & ->). split; [|done]. destruct (iv_shape (inv_max n I)) as [c1 R1]. by eapply bound_evict.
  - destruct Hs as (-> & -> & ->). split; [|done]. destruct (iv_shape (inv_resize k v I Hw)) as [c1 R1]. by eapply bound_evict.
  - destruct Hs as (-> & -> & ->). destruct (iv_shape (inv_idle (timeout_of t) I)) as [c1 R1]. split; [|apply (lv_lru (leave_expire clk (with_idle _ s)))].
    eapply bound_leave; [exact R1|apply leave_expire|]. exact B.
Qed.

(** ** Runs *)
Definition Good cf c (h : list (event V)) s : Prop :=
  Rep c s /\ Inv s (books_of clk cf h) /\ Bound s /\ q_lru s = cf_lru cf /\ q_tick s = l_tick c.
Lemma rep_tick c s : Rep c s -> l_tick c = q_tick s.
Proof. intros (L & P & D & A). apply (ab_tick (proj1 A)). Qed.

Lemma good_new cf c0 x : (forall n, cf_timeout cf = Some n -> 0 <= n) ->
  SetTimeout recorder clk 2 (cf_timeout cf) (cf_lru cf) (NewCache (cf_max cf), []) = Ok (c0, x) -> exists s, Good cf c0 [] s.
Proof.
  intros Ht H. set (n := timeout_limit (cf_timeout cf)).
  assert (exists k, c0 = Lru ∅ 0 ∅ ∅ [] 0 (cf_max cf) 0 n (cf_lru cf) k) as [k ->].
  { unfold SetTimeout in H. unfold n. destruct (cf_timeout cf) as [m|]; cbn in H.
    - specialize (Ht m eq_refl). unfold DiscardIdle in H. destruct (m <? 0) eqn:E; [apply Z.ltb_lt in E; lia|]. cbn in H. injection H as <- _. eexists. reflexivity.
    - injection H as <- _. eexists. reflexivity. }
  exists (Ideal [] [] [] (cf_max cf) n (cf_lru cf) k).
  assert (R : Rep (V := V) (Lru ∅ 0 ∅ ∅ [] 0 (cf_max cf) 0 n (cf_lru cf) k) (Ideal [] [] [] (cf_max cf) n (cf_lru cf) k)).
  { exists [], [], []. split; [|done]. constructor; cbn; try done; constructor. }
  split_and!; try done.
  - constructor; cbn; try done; [eauto|intros y Hy; by apply elem_of_nil in Hy|intros y Hy; by apply elem_of_nil in Hy|constructor|intros y Hy; by apply elem_of_nil in Hy|constructor].
  - right. constructor.
Qed.

Lemma reach_good cf c h : reach clk ord cf c h -> exists s, Good cf c h s.
Proof.
  induction 1 as [c0 x Ht H|c h o c' r x H (s & R & I & B & El & Et) Hl Hs]; [by eapply good_new|].
  pose proof (lawful_legal o I Hl) as Hw. destruct (step_sim clk ord o R (inv_timed I) Hw) as (c2 & r2 & es & s' & H2 & R2 & S2).
  rewrite Hs in H2. injection H2 as <- <- ->. exists s'. destruct (bound_step _ _ _ _ I Hl S2 B) as [B2 El2].
  split_and!; [done| |done|by rewrite El2|by rewrite (rep_tick R2)].
  unfold books_of. rewrite foldl_app. cbn [foldl]. fold (books_of clk cf h). rewrite <- El, (rep_tick R), (rep_tick R2).
  eapply inv_step; eauto.
Qed.
(** One more call: the step, in the list view. *)
Lemma reach_more cf c h o : reach clk ord cf c h -> legal (books_of clk cf h) o ->
  exists s c' r es s', Good cf c h s /\ step clk ord o c = Ok (c', r, kv <$> es) /\ sim clk o s r es s' /\
    Good cf c' (h ++ [Event o r (kv <$> es) (l_tick c) (l_tick c')]) s'.
Proof.
  intros H Hl. destruct (reach_good H) as (s & R & I & B & El & Et).
  pose proof (lawful_legal o I Hl) as Hw. destruct (step_sim clk ord o R (inv_timed I) Hw) as (c2 & r2 & es & s' & H2 & R2 & S2).
  exists s, c2, r2, es, s'. split; [done|]. split; [done|]. split; [done|].
  destruct (bound_step _ _ _ _ I Hl S2 B) as [B2 El2].
  split_and!; [done| |done|by rewrite El2|by rewrite (rep_tick R2)].
  unfold books_of. rewrite foldl_app. cbn [foldl]. fold (books_of clk cf h). rewrite <- El, (rep_tick R), (rep_tick R2).
  eapply inv_step; eauto.
Qed.
End lproofs.
