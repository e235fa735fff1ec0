(** Every call keeps the books right (proof-internal vocabulary). *)
From stdpp Require Import gmap.
From Verif Require Import Base Proto Lru LruSim LruOps LruOps2 LruSpec LruInv LruBooks.
Local Open Scope Z_scope.
Set Implicit Arguments.
Local Arguments sum_Z : simpl never.
Local Arguments dead : simpl never.

Arguments iv_pins {V EqDecision0 clk s b} _ _ _. Arguments iv_held {V EqDecision0 clk s b} _ _ _.
Arguments iv_stamps {V EqDecision0 clk s b} _ _ _. Arguments iv_times {V EqDecision0 clk s b} _ _ _.

Section lstep.
Context {V : Type} `{!EqDecision V}.
Implicit Types (c : lru V) (s : ideal V) (e : elem V) (b : books V) (o : op V).
Variable clk : nat -> Z.
Variable ord : hash_order.
Hypothesis clock : proper_clock clk.
Notation Inv := (Inv clk).

(** ** Filters *)
Lemma filter_ext {A} (P Q : A -> Prop) `{!∀ x, Decision (P x)} `{!∀ x, Decision (Q x)} (l : list A) :
  (forall x, x ∈ l -> P x <-> Q x) -> filter P l = filter Q l.
Proof.
  induction l as [|x l IH]; intros HPQ; [done|]. rewrite !filter_cons. rewrite IH by (intros y Hy; apply HPQ; by right).
  pose proof (HPQ x (elem_of_list_here _ _)). destruct (decide (P x)), (decide (Q x)); tauto.
Qed.
Lemma filter_app_out {A B} `{!EqDecision B} (g : A -> B) (a d : list B) (l : list A) :
  filter (fun y => g y ∉ a ++ d) l = filter (fun y => g y ∉ d) (filter (fun y => g y ∉ a) l).
Proof.
  induction l as [|x l IH]; [done|]. rewrite (filter_cons _ x), (filter_cons (fun y => g y ∉ a)).
  destruct (decide (g x ∉ a)) as [Ha|Ha].
  - rewrite filter_cons. destruct (decide (g x ∉ d)) as [Hb|Hb], (decide (g x ∉ a ++ d)) as [Hc|Hc]; rewrite ?IH; try done; rewrite elem_of_app in Hc; tauto.
  - destruct (decide (g x ∉ a ++ d)) as [Hc|Hc]; [rewrite elem_of_app in Hc; tauto|done].
Qed.
Lemma filter_same {A} (P : A -> Prop) `{!∀ x, Decision (P x)} (l : list A) : (forall x, x ∈ l -> P x) -> filter P l = l.
Proof. apply filter_all. Qed.
Lemma filter_idem {A} (P : A -> Prop) `{!∀ x, Decision (P x)} (l : list A) : filter P (filter P l) = filter P l.
Proof. apply filter_same. intros x Hx. by apply elem_of_list_filter in Hx as [? _]. Qed.

Lemma rep_lru_lst c s : Rep c s -> q_lru s = true -> Forall (fun e => e_pin e = 0) (q_lst s).
Proof. intros (L & P & D & A) H. by apply (ab_lstpin (proj1 A)). Qed.
Lemma rep_pin_pos c s : Rep c s -> Forall (fun e => 0 < e_pin e) (q_pin s).
Proof. intros (L & P & D & A). apply (ab_pinpin (proj1 A)). Qed.
Lemma rep_age_pin c s : Rep c s -> q_lru s = false -> q_pin s = [].
Proof. intros (L & P & D & A) H. by apply (ab_pinlru (proj1 A)). Qed.
Lemma rep_def_pos c s : Rep c s -> Forall (fun e => 0 < e_pin e) (q_def s).
Proof. intros (L & P & D & A). apply (ab_defpin (proj1 A)). Qed.

(** ** Expiry in the books *)
Lemma use_time_spec (l : list (string * V * Z)) x t : NoDup l.*1 -> (x, t) ∈ l -> use_time x l = Some t.
Proof.
  induction l as [|[y u] l IH]; intros N H; [by apply elem_of_nil in H|]. csimpl in N. apply NoDup_cons in N as [N1 N2].
  cbn [use_time]. apply elem_of_cons in H as [H|H].
  - injection H as -> ->. by rewrite decide_True.
  - rewrite decide_False; [by apply IH|]. intros ->. apply N1. by apply (elem_of_list_fmap_1 fst _ (x, t)).
Qed.
Lemma inv_last_use s b e : Inv s b -> e ∈ cached_elems s -> last_use (kv e) b = Some (e_last e).
Proof. intros I H. apply use_time_spec; [apply (iv_uniq I)|]. apply (iv_stamps I e H). Qed.

Lemma expire_elem thr (r : list (elem V)) e : StronglySorted (fun p q => e_last p <= e_last q) r ->
  e ∈ (expire thr r).2 <-> e ∈ r /\ e_last e < thr.
Proof.
  intros S. induction S as [|x r S IH F]; cbn [expire].
  - cbn [snd]. rewrite !elem_of_nil. tauto.
  - destruct (e_last x <? thr) eqn:E.
    + apply Z.ltb_lt in E. cbn [snd]. rewrite !elem_of_cons, IH. split; [|tauto]. intros [->|?]; tauto.
    + apply Z.ltb_ge in E. cbn [snd]. rewrite elem_of_nil, elem_of_cons. split; [done|]. intros [[->|H] H2]; [lia|].
      rewrite Forall_forall in F. specialize (F e H). cbn in F. lia.
Qed.
Lemma sorted_rev (l : list (elem V)) : StronglySorted (newer (V:=V)) l -> StronglySorted (fun p q => e_last p <= e_last q) (rev l).
Proof.
  intros S. induction S as [|x l S IH F]; cbn [rev]; [constructor|].
  apply SSorted_app; [done|repeat constructor|]. intros a y Ha Hy. apply elem_of_list_singleton in Hy as ->.
  rewrite elem_of_list_In, <- in_rev, <- elem_of_list_In in Ha. rewrite Forall_forall in F. apply (F a Ha).
Qed.
Lemma expired_elem s b e : Inv s b -> e ∈ expired clk s <-> 0 <= q_idle s /\ e ∈ q_lst s /\ e_last e < threshold clk s.
Proof.
  intros I. destruct (inv_timed I) as [S _]. unfold expired. destruct (0 <=? q_idle s) eqn:E.
  - apply Z.leb_le in E. rewrite expire_elem by by apply sorted_rev. rewrite elem_of_list_In, <- in_rev, <- elem_of_list_In. tauto.
  - apply Z.leb_gt in E. rewrite elem_of_nil. split; [done|]. lia.
Qed.

Definition b_fresh (lru_mode : bool) (now limit : Z) b : list (string * V) :=
  if negb lru_mode then filter (fun x => overdue now limit b x = false) (b_cached b) else b_cached b.
Lemma expire_books s b : Inv s b ->
  filter (fun x => x ∉ kv <$> r_expire clk s) (b_fresh (q_lru s) (clk (q_tick s)) (q_idle s) b) = filter (fun x => x ∉ kv <$> expired clk s) (b_cached b).
Proof.
  intros I. rewrite r_expire_dead. unfold b_fresh. destruct (iv_shape I) as [c R]. pose proof (rep_keys R) as NK.
  assert (Hc : forall x, x ∈ b_cached b -> exists e, x = kv e /\ e ∈ cached_elems s).
  { intros x Hx. rewrite (iv_cached I) in Hx. by apply elem_of_list_fmap in Hx. }
  destruct (q_lru s) eqn:El; cbn [negb].
  - apply filter_ext. intros x Hx. assert (E : dead (expired clk s) = expired clk s); [|by rewrite E].
    apply dead_id. apply Forall_forall. intros e He. apply (expired_elem e I) in He as (_ & He & _).
    pose proof (rep_lru_lst R El) as F. rewrite Forall_forall in F. by apply F.
  - rewrite list_filter_filter. apply filter_ext. intros x Hx. destruct (Hc x Hx) as (e & -> & He).
    assert (Hl : e ∈ q_lst s). { unfold cached_elems in He. rewrite (rep_age_pin R El), app_nil_r in He. done. }
    assert (Ho : overdue (clk (q_tick s)) (q_idle s) b (kv e) = true <-> kv e ∈ kv <$> expired clk s).
    { unfold overdue. rewrite (inv_last_use I He). rewrite andb_true_iff, Z.leb_le, Z.ltb_lt. rewrite elem_of_list_fmap. split.
      - intros [H1 H2]. exists e. split; [done|]. apply (expired_elem e I). done.
      - intros (e' & E & He'). apply (expired_elem e' I) in He' as (H1 & H2 & H3). split; [done|].
        assert (e = e') as ->; [|done]. eapply (nodup_inj e_key); [exact NK|done| |by injection E].
        unfold cached_elems. apply elem_of_app. by left. }
    destruct (overdue (clk (q_tick s)) (q_idle s) b (kv e)).
    + split; [by intros [_ ?]|]. intros H. exfalso. apply H. by apply Ho.
    + split; [|]; intros H.
      * intros H2. apply Ho in H2. done.
      * split; [|done]. intros H2. apply H. apply elem_of_list_fmap in H2 as (e' & -> & H2). apply elem_of_list_fmap_1. unfold dead in H2. by apply elem_of_list_filter in H2 as [_ ?].
Qed.

Lemma remove_books k s b : Inv s b ->
  filter (fun x => x ∉ kv <$> filter (fun e => e_key e = k) (cached_elems s)) (b_cached b) = filter (fun x => x.1 <> k) (b_cached b).
Proof.
  intros I. apply filter_ext. intros x Hx. rewrite (iv_cached I) in Hx. apply elem_of_list_fmap in Hx as (e & -> & He). cbn. split.
  - intros H E. apply H. apply elem_of_list_fmap_1. by apply elem_of_list_filter.
  - intros H Hin. apply H. apply elem_of_list_fmap in Hin as (e' & E & H2). apply elem_of_list_filter in H2 as [<- _]. by injection E.
Qed.

(** ** Releasing a detached value *)
Lemma undefer_perm c s e : Rep c s -> e ∈ q_def s -> exists R, q_def s ≡ₚ e :: R /\
  (e_pin e = 1 -> q_def (i_undefer e s) ≡ₚ R) /\ (e_pin e <> 1 -> q_def (i_undefer e s) ≡ₚ unpinned e :: R).
Proof.
  intros Rp H. pose proof (rep_vals Rp) as N. unfold all_elems in N. rewrite app_assoc, fmap_app in N. apply NoDup_app in N as (_ & _ & N).
  apply elem_of_list_split in H as (a & b' & E). rewrite E in N. rewrite fmap_app in N. csimpl in N. apply NoDup_app in N as (_ & N1 & N2). apply NoDup_cons in N2 as [N2 _].
  destruct (@val_out V _ (e_value e) a) as [Q1 Q2].
  { intros x Hx Ex. apply (N1 (e_value e)); [|left]. rewrite <- Ex. by apply elem_of_list_fmap_1. }
  destruct (@val_out V _ (e_value e) b') as [Q3 Q4].
  { intros x Hx Ex. apply N2. rewrite <- Ex. by apply elem_of_list_fmap_1. }
  exists (a ++ b'). rewrite E. unfold i_undefer. split; [symmetry; apply Permutation_middle|]. split; intros Hp.
  - rewrite Hp, Z.eqb_refl. cbn [with_lists q_def]. rewrite E, filter_app, Q1. rewrite filter_cons_False by (intros X; by apply X). by rewrite Q3.
  - apply Z.eqb_neq in Hp. rewrite Hp. cbn [with_lists q_def]. rewrite E. unfold at_val in *. rewrite fmap_app. csimpl. rewrite decide_True by done.
    rewrite Q2, Q4. symmetry. apply Permutation_middle.
Qed.
Lemma inv_undefer s b e : Inv s b -> e ∈ q_def s ->
  Inv (i_undefer e s) (b_leave (kv <$> r_undefer e s) (kv <$> r_undefer e s)
     (b_touch (drop_one (kv e) (b_held b)) (if q_lru s then use (kv e) (clk (pred (q_tick s))) (b_recent b) else b_recent b) b)).
Proof.
  intros I H. destruct (iv_shape I) as [c Rp]. destruct (undefer_perm Rp H) as (R & ED & E1 & E2).
  pose proof (rep_def_pos Rp) as F. rewrite Forall_forall in F. specialize (F e H). cbn in F.
  pose proof (rep_vals Rp) as N. unfold all_elems in N. rewrite app_assoc in N. fold (cached_elems s) in N. rewrite ED in N.
  assert (NV : e_value e ∉ e_value <$> cached_elems s ++ R).
  { assert (X : cached_elems s ++ e :: R ≡ₚ e :: cached_elems s ++ R) by (symmetry; apply Permutation_middle). rewrite X in N. csimpl in N. by apply NoDup_cons in N as [N _]. }
  assert (EA : all_elems s ≡ₚ e :: cached_elems s ++ R).
  { unfold all_elems. rewrite app_assoc. fold (cached_elems s). rewrite ED. symmetry. apply Permutation_middle. }
  assert (Hlst : q_lst (i_undefer e s) = q_lst s) by (unfold i_undefer; by destruct (e_pin e =? 1)).
  assert (Hpin : q_pin (i_undefer e s) = q_pin s) by (unfold i_undefer; by destruct (e_pin e =? 1)).
  assert (Htk : q_tick (i_undefer e s) = q_tick s) by (unfold i_undefer; by destruct (e_pin e =? 1)).
  assert (Hc : cached_elems (i_undefer e s) = cached_elems s) by (unfold cached_elems; by rewrite Hlst, Hpin).
  assert (Hall' : all_elems (i_undefer e s) ≡ₚ cached_elems s ++ q_def (i_undefer e s)).
  { unfold all_elems. rewrite app_assoc. fold (cached_elems (i_undefer e s)). by rewrite Hc. }
  assert (Hne : forall x, x ∈ cached_elems s ++ R -> kv x <> kv e).
  { intros x Hx E. apply NV. injection E as _ <-. by apply elem_of_list_fmap_1. }
  assert (Hh : kv e ∈ b_held b).
  { pose proof (iv_pins I e ltac:(rewrite EA; left)) as X. unfold count in X. destruct (filter (fun y => y = kv e) (b_held b)) as [|z l] eqn:E; [cbn in X; lia|].
    assert (Y : z ∈ filter (fun y => y = kv e) (b_held b)) by (rewrite E; left). apply elem_of_list_filter in Y as [-> Y]. done. }
  assert (Hsafe : forall x, x ∈ cached_elems s ++ R -> kv x ∉ kv <$> r_undefer e s).
  { intros x Hx. unfold r_undefer. destruct (e_pin e =? 1); cbn; [|apply not_elem_of_nil]. rewrite elem_of_list_singleton. by apply Hne. }
  assert (Hle : forall y, y ∈ b_recent b -> 0 <= y.2 <= clk (pred (q_tick s))) by apply (iv_times I).
  constructor; cbn [b_leave b_touch b_alive b_held b_cached b_recent b_max b_idle].
  - destruct (op_release_deferred (fun (u : unit) _ => Ok u) clk Rp H) as (c' & _ & P1). eauto.
  - rewrite Hall'. unfold r_undefer. destruct (e_pin e =? 1) eqn:Ep.
    + apply Z.eqb_eq in Ep. rewrite (E1 Ep). cbn. apply (@filter_perm _ _ _ _ [trip e]).
      * rewrite (iv_alive I), EA. done.
      * intros y Hy. apply elem_of_list_singleton in Hy as ->. intros X. apply X. cbn. left.
      * intros y Hy. apply elem_of_list_fmap in Hy as (x & -> & Hx). cbn. intros X. apply elem_of_list_singleton in X. by apply (Hne x).
    + apply Z.eqb_neq in Ep. rewrite (E2 Ep). cbn. rewrite filter_same by (intros y Hy X; by apply elem_of_nil in X).
      rewrite (iv_alive I), EA. rewrite <- Permutation_middle. done.
  - intros x Hx. rewrite Hall' in Hx. rewrite count_drop by done.
    destruct (decide (e_pin e = 1)) as [Ep|Ep].
    + rewrite (E1 Ep) in Hx. rewrite decide_False by by apply Hne. rewrite <- (iv_pins I x); [lia|]. rewrite EA. by right.
    + rewrite (E2 Ep), <- Permutation_middle in Hx. apply elem_of_cons in Hx as [->|Hx].
      * cbn [unpinned set_pin e_pin]. change (kv (unpinned e)) with (kv e). rewrite decide_True by done. rewrite <- (iv_pins I e); [lia|]. rewrite EA. left.
      * rewrite decide_False by by apply Hne. rewrite <- (iv_pins I x); [lia|]. rewrite EA. by right.
  - intros x Hx. pose proof (drop_elem _ _ Hx) as Hx0. apply (iv_held I) in Hx0. rewrite EA in Hx0. rewrite Hall'. csimpl in Hx0.
    destruct (decide (e_pin e = 1)) as [Ep|Ep].
    + rewrite (E1 Ep). apply elem_of_cons in Hx0 as [->|Hx0]; [|done]. exfalso.
      pose proof (count_drop (kv e) Hh) as X. rewrite decide_True in X by done. rewrite <- (iv_pins I e) in X by (rewrite EA; left).
      assert (Y : kv e ∈ filter (fun y => y = kv e) (drop_one (kv e) (b_held b))) by by apply elem_of_list_filter.
      unfold count in X. destruct (filter (fun y => y = kv e) (drop_one (kv e) (b_held b))); [by apply elem_of_nil in Y|cbn in X; lia].
    + rewrite (E2 Ep), <- Permutation_middle. csimpl. done.
  - rewrite Hc. rewrite filter_same; [apply (iv_cached I)|]. intros x Hx. rewrite (iv_cached I) in Hx. apply elem_of_list_fmap in Hx as (y & -> & Hy).
    apply Hsafe. apply elem_of_app. by left.
  - rewrite Hlst. destruct (q_lru s); [|apply (iv_order I)]. unfold use. constructor. apply sub_use; [apply (iv_order I)|].
    intros y Hy. apply elem_of_list_fmap in Hy as (x & -> & Hx). apply (Hne x). unfold cached_elems. rewrite !elem_of_app. tauto.
  - intros x Hx. rewrite Hc in Hx. destruct (q_lru s); [|by apply (iv_stamps I)]. apply use_elem; [by apply (iv_stamps I)|].
    apply Hne. apply elem_of_app. by left.
  - destruct (q_lru s); [apply use_uniq|]; apply I.
  - rewrite Htk. intros y Hy. destruct (q_lru s); [|by apply Hle]. apply elem_of_cons in Hy as [->|Hy].
    + cbn. split; [apply clock|lia].
    + apply elem_of_list_filter in Hy as [_ Hy]. auto.
  - destruct (q_lru s); [|apply I]. apply use_sorted; [apply I|]. intros y Hy. apply (Hle y Hy).
  - unfold i_undefer. destruct (e_pin e =? 1); apply (iv_max I).
  - unfold i_undefer. destruct (e_pin e =? 1); apply (iv_idle I).
Qed.

(** ** Releasing a cached value *)
Lemma leave_refl s : leave s [] s.
Proof. by constructor. Qed.
Lemma release_leave c s e : Rep c s -> e ∈ cached_elems s -> 0 < e_pin e ->
  leave (i_unpin clk (e_key e) e s) (r_release clk e s) (i_release clk e s) /\ dead (r_release clk e s) = r_release clk e s /\
  (goes e s = true -> r_release clk e s = [released clk e s]) /\ (goes e s = false -> r_release clk e s = []).
Proof.
  intros R H Hp. unfold i_release, r_release. destruct (goes e s) eqn:Eg.
  - destruct (unpin_retouch clk R H Hp) as [T _]. destruct (unpin_runs (fun (u : unit) _ => Ok u) clk R H Hp) as (c1 & P1 & _).
    destruct (rt_perm T) as (R' & _ & EC). pose proof (rep_keys P1) as NK.
    unfold goes in Eg. apply andb_true_iff in Eg as [Ep _]. apply Z.eqb_eq in Ep.
    assert (Hk : e_key (released clk e s) = e_key e) by (unfold released; by destruct (q_lru s)).
    assert (Hz : e_pin (released clk e s) = 0) by (unfold released, unpinned; destruct (q_lru s); cbn; lia).
    assert (Hf : filter (fun x => e_key x = e_key e) (cached_elems (i_unpin clk (e_key e) e s)) = [released clk e s]).
    { apply Permutation_singleton_r. rewrite EC. rewrite filter_cons_True by done.
      assert (X : filter (fun x => e_key x = e_key e) R' = []); [|by rewrite X].
      rewrite EC in NK. csimpl in NK. apply NoDup_cons in NK as [NK _]. rewrite Hk in NK. by apply (filter_key_out R' NK). }
    assert (Hd : r_remove (e_key e) (i_unpin clk (e_key e) e s) = [released clk e s]).
    { unfold r_remove. rewrite Hf. unfold dead. by rewrite filter_cons_True. }
    rewrite Hd. split; [|split; [|split; [done|done]]].
    + rewrite <- Hf at 1. apply leave_remove.
    + unfold dead. by rewrite filter_cons_True.
  - split; [apply leave_refl|done].
Qed.
Lemma inv_release s b e : Inv s b -> e ∈ cached_elems s -> 0 < e_pin e ->
  Inv (i_release clk e s) (b_leave (kv <$> r_release clk e s) (kv <$> r_release clk e s)
     (b_touch (drop_one (kv e) (b_held b)) (if q_lru s then use (kv e) (clk (q_tick s)) (b_recent b) else b_recent b) b)).
Proof.
  intros I H Hp. destruct (iv_shape I) as [c R]. destruct (release_leave R H Hp) as (L & Hd & _).
  pose proof (inv_unpin clock I H Hp) as I1. rewrite <- Hd at 1. eapply inv_leave; [done|exact I1|exact L|].
  destruct (op_release_cached (fun (u : unit) _ => Ok u) clk R H Hp) as (c' & _ & P1). eauto.
Qed.

(** ** The calls *)
Definition nop (u : unit) (_ : string * V) : outcome unit := Ok u.
Lemma shape_evict s : (exists c, Rep c s) -> exists c, Rep c (i_evict s).
Proof. intros [c R]. destruct (op_gc nop (fuel := S (length (q_lst s))) R ltac:(lia)) as (c' & _ & P). eauto. Qed.
Lemma shape_remove k s : (exists c, Rep c s) -> exists c, Rep c (i_remove k s).
Proof. intros [c R]. destruct (op_remove nop k R) as (c' & _ & P). eauto. Qed.
Lemma shape_expire s : (exists c, Rep c s) -> Timed s -> exists c, Rep c (i_expire clk s).
Proof. intros [c R] T. destruct (op_expire nop clk (fuel := S (length (q_lst s))) R T ltac:(lia)) as (c' & _ & P). eauto. Qed.

Lemma inv_evict s b : Inv s b -> Inv (i_evict s) (b_leave (kv <$> r_evict s) (kv <$> r_evict s) b).
Proof.
  intros I. rewrite r_evict_dead at 1. apply inv_leave with s; [done|done|apply leave_evict|].
  apply shape_evict. apply I.
Qed.
Lemma inv_removed k s b : Inv s b ->
  Inv (i_remove k s) (b_leave (kv <$> r_remove k s) (kv <$> filter (fun x => e_key x = k) (cached_elems s)) b).
Proof. intros I. apply inv_leave with s; [done|done|apply leave_remove|]. apply shape_remove. apply I. Qed.
Lemma inv_expired s b : Inv s b -> Inv (i_expire clk s) (b_leave (kv <$> r_expire clk s) (kv <$> expired clk s) b).
Proof.
  intros I. rewrite r_expire_dead. apply inv_leave with s; [done|done|apply leave_expire|]. apply shape_expire; [apply I|]. by eapply inv_timed.
Qed.

Definition b_insert (k : string) (v : V) (u t : Z) (d : list (string * V)) (b : books V) : books V :=
  Books (filter (fun y => y.1 ∉ d) ((k, v, u) :: b_alive b)) ((k, v) :: b_held b)
        (filter (fun x => x ∉ d) ((k, v) :: filter (fun x => x.1 <> k) (b_cached b))) (use (k, v) t (b_recent b)) (b_max b) (b_idle b).
Lemma inv_insert s b k v u : Inv s b -> 0 <= u -> v ∉ e_value <$> all_elems s ->
  Inv (i_evict (i_insert1 clk k v u s)) (b_insert k v u (clk (q_tick s)) (kv <$> r_remove k s ++ r_evict (i_insert1 clk k v u s)) b).
Proof.
  intros I Hu Hv. pose proof (inv_removed k I) as I1.
  assert (Hv1 : v ∉ e_value <$> all_elems (i_remove k s)).
  { intros H. apply Hv. rewrite (removed_perm k s), fmap_app. apply elem_of_app. by right. }
  assert (Hk1 : k ∉ e_key <$> cached_elems (i_remove k s)).
  { intros H. apply elem_of_list_fmap in H as (e & -> & H). by apply in_removed in H as [_ H]. }
  pose proof (inv_evict (inv_new clock (s := i_remove k s) I1 Hu Hk1 Hv1)) as I2.
  change (q_tick (i_remove k s)) with (q_tick s) in I2.
  eapply inv_eq; [exact I2|]. unfold b_insert, b_leave, b_new. 
  assert (Hd : (k, v) ∉ kv <$> r_remove k s).
  { intros H. apply Hv. rewrite (removed_perm k s), fmap_app. apply elem_of_app. left. apply elem_of_list_fmap in H as (e & E & H).
    injection E as _ ->. by apply elem_of_list_fmap_1. }
  constructor; cbn [b_alive b_held b_cached b_recent b_max b_idle]; try done.
  - rewrite fmap_app, filter_app_out. rewrite (filter_cons_True (fun y => y.1 ∉ kv <$> r_remove k s)) by done. done.
  - rewrite fmap_app, filter_app_out. rewrite (filter_cons_True (fun y => y ∉ kv <$> r_remove k s)) by done.
    rewrite (remove_books k I). rewrite (filter_same (fun y => y ∉ kv <$> r_remove k s)); [done|].
    intros x Hx. apply elem_of_list_filter in Hx as [Hx _]. intros H. apply elem_of_list_fmap in H as (e & -> & H).
    unfold r_remove, dead in H. apply elem_of_list_filter in H as [_ H]. apply elem_of_list_filter in H as [H _]. by apply Hx.
Qed.

Lemma i_release_tick e s : q_tick (i_release clk e s) = if q_lru s then S (q_tick s) else q_tick s.
Proof. unfold i_release, i_unpin. destruct (goes e s), (q_lru s), (e_pin e =? 1); done. Qed.
Lemma evict_tick s : q_tick (i_evict s) = q_tick s /\ q_lru (i_evict s) = q_lru s.
Proof. done. Qed.
Lemma insert1_tick k v u s : q_tick (i_insert1 clk k v u s) = S (q_tick s) /\ q_lru (i_insert1 clk k v u s) = q_lru s.
Proof. unfold i_insert1, i_add. destruct (q_lru (with_tick (S (q_tick s)) (i_remove k s))) eqn:E; cbn in *; by rewrite E. Qed.
Lemma undefer_tick e s : q_tick (i_undefer e s) = q_tick s.
Proof. unfold i_undefer. by destruct (e_pin e =? 1). Qed.

Lemma clear_leave s es : Forall (fun e => e_pin e = 0) (all_elems s) -> (exists c, Rep c s) -> es ≡ₚ all_elems s -> leave s es (with_lists [] [] [] s) /\ dead es = es.
Proof.
  intros F [c R] E. assert (Hd : q_def s = []).
  { pose proof (rep_def_pos R) as G. unfold all_elems in F. rewrite !Forall_app in F. destruct F as (_ & _ & F).
    destruct (q_def s) as [|x d]; [done|]. apply Forall_inv in F, G. lia. }
  assert (F2 : Forall (fun e => e_pin e = 0) es) by by rewrite E.
  destruct (dead_id F2) as [D1 D2]. split; [|done].
  unfold all_elems in E. rewrite Hd, app_nil_r in E.
  constructor; cbn [with_lists q_lst q_pin q_def q_lru q_max q_idle q_tick]; try done.
  - unfold cached_elems. cbn [with_lists q_lst q_pin]. rewrite app_nil_r. by rewrite E.
  - apply sublist_nil_l.
  - by rewrite D2, Hd.
Qed.

Lemma filter_none {A} (P : A -> Prop) `{!∀ x, Decision (P x)} (l : list A) : (forall x, x ∈ l -> ~ P x) -> filter P l = [].
Proof.
  induction l as [|x l IH]; intros HP; [done|]. rewrite filter_cons_False by (apply HP; left). apply IH. intros y Hy. apply HP. by right.
Qed.

Lemma lawful_legal s b o : Inv s b -> legal b o -> lawful o s.
Proof.
  intros I. assert (Ev : (b_alive b).*1.*2 ≡ₚ e_value <$> all_elems s).
  { rewrite (iv_alive I). rewrite <- !list_fmap_compose. done. }
  destruct o; cbn [legal lawful]; try done; try (rewrite Ev; done).
  - intros H. pose proof (iv_held I _ H) as X. apply elem_of_list_fmap in X as (e & E & He). injection E as -> ->. exists e. repeat split; [done|].
    rewrite (iv_pins I e He). unfold count. assert (Y : kv e ∈ filter (fun y => y = kv e) (b_held b)) by by apply elem_of_list_filter.
    destruct (filter _ _); [by apply elem_of_nil in Y|cbn; lia].
  - intros H. apply Forall_forall. intros e He. rewrite (iv_pins I e He), H. done.
Qed.

Lemma fmap_in (l1 l2 : list (elem V)) x : l1 ≡ₚ l2 -> x ∈ kv <$> l1 <-> x ∈ kv <$> l2.
Proof. intros E. by rewrite E. Qed.

Lemma inv_step s b o r es s' : Inv s b -> legal b o -> sim clk o s r es s' -> (exists c, Rep c s') ->
  Inv s' (observe clk (q_lru s) b (Event o r (kv <$> es) (q_tick s) (q_tick s'))).
Proof.
  intros I Hl Hs Hsh. pose proof (lawful_legal o I Hl) as Hw. pose proof (iv_idle I) as Hi.
  destruct o as [k v u|k v u|k|k v|k| | | | |n|k v u|t]; cbn [sim lawful] in *; unfold observe; cbn [ev_op ev_ret ev_destroyed ev_from ev_to used_by expires limit_after ledger andb].
  - destruct Hs as (He & -> & -> & ->). destruct Hw as [Hv Hu].
    pose proof (inv_insert k I Hu Hv) as I1. set (s1 := i_evict (i_insert1 clk k v u s)) in *. set (e := new_elem k v u (clk (q_tick s))) in *.
    assert (Hp : 0 < e_pin e) by (cbn; lia). pose proof (inv_release I1 He Hp) as I2.
    assert (Et : q_tick s1 = S (q_tick s)) by (apply insert1_tick). assert (El : q_lru s1 = q_lru s) by (apply insert1_tick).
    rewrite El, Et in I2. rewrite i_release_tick, El, Et.
    eapply inv_eq; [exact I2|]. unfold b_insert, b_leave, b_touch. change (kv e) with (k, v).
    constructor; cbn [b_alive b_held b_cached b_recent b_max b_idle drop_one]; try done.
    + rewrite (fmap_app kv (r_remove k s ++ _) (r_release clk e s1)). by rewrite (filter_app_out fst).
    + by rewrite decide_True.
    + rewrite (fmap_app kv (r_remove k s ++ _) (r_release clk e s1)). by rewrite (filter_app_out id).
    + unfold use. destruct (q_lru s); cbn [pred].
      * rewrite (filter_cons_False _ ((k, v), clk (q_tick s))) by (intros X; by apply X). by rewrite filter_idem.
      * done.
  - destruct Hs as (-> & -> & ->). destruct Hw as [Hv Hu].
    pose proof (inv_insert k I Hu Hv) as I1. destruct (insert1_tick k v u s) as [Et _].
    eapply inv_eq; [exact I1|]. cbn [evict_tick]. change (q_tick (i_evict (i_insert1 clk k v u s))) with (q_tick (i_insert1 clk k v u s)). rewrite Et.
    by constructor.
  - destruct Hs as (-> & Hs). pose proof (inv_expired I) as I1. pose proof (expire_books I) as Hb. unfold b_fresh in Hb. rewrite Hi in Hb.
    destruct Hs as [(e & He & <- & -> & ->)|(Hk & -> & ->)].
    + pose proof (inv_pin clock I1 He) as I2. eapply inv_eq; [exact I2|].
      constructor; cbn [b_leave b_touch b_alive b_held b_cached b_recent b_max b_idle]; try done. by rewrite <- Hb.
    + eapply inv_eq; [exact I1|]. constructor; cbn [b_leave b_alive b_held b_cached b_recent b_max b_idle]; try done. by rewrite <- Hb.
  - destruct Hs as (-> & e & <- & <- & Hp & [(He & -> & ->)|(He & -> & ->)]).
    + rewrite undefer_tick. eapply inv_eq; [exact (inv_undefer I He)|]. change (e_key e, e_value e) with (kv e).
      constructor; cbn [b_leave b_touch b_alive b_held b_cached b_recent b_max b_idle]; try done. by destruct (q_lru s).
    + rewrite i_release_tick. eapply inv_eq; [exact (inv_release I He Hp)|]. change (e_key e, e_value e) with (kv e).
      constructor; cbn [b_leave b_touch b_alive b_held b_cached b_recent b_max b_idle]; try done. by destruct (q_lru s).
  - destruct Hs as (-> & -> & ->). eapply inv_eq; [exact (inv_removed k I)|].
    constructor; cbn [b_leave b_alive b_held b_cached b_recent b_max b_idle]; try done.
    rewrite (remove_books k I). rewrite (filter_same (fun y => y ∉ kv <$> r_remove k s)); [done|].
    intros x Hx. apply elem_of_list_filter in Hx as [Hx _]. intros H. apply elem_of_list_fmap in H as (e & -> & H).
    unfold r_remove, dead in H. apply elem_of_list_filter in H as [_ H]. apply elem_of_list_filter in H as [H _]. by apply Hx.
  - destruct Hs as (-> & gs & Eg & -> & ->). eapply inv_eq; [eapply inv_leave; [done|exact I|exact (leave_all_gone _ Eg)|]|].
    { done. }
    constructor; cbn [b_leave b_alive b_held b_cached b_recent b_max b_idle]; try done.
    rewrite filter_none; [done|]. intros x Hx X. apply X. rewrite (fmap_in x Eg). by rewrite <- (iv_cached I).
  - destruct Hs as (-> & -> & ->). eapply inv_eq; [eapply inv_leave; [done|exact I|exact (leave_unpinned s)|]|].
    { done. }
    rewrite dead_dead. by constructor.
  - destruct Hs as (-> & Ee & ->). destruct (clear_leave Hw (iv_shape I) Ee) as [L D].
    eapply inv_eq; [eapply inv_leave; [done|exact I|exact L|]|].
    { done. }
    rewrite D. constructor; cbn [b_leave b_alive b_held b_cached b_recent b_max b_idle]; try done.
    rewrite filter_none; [done|]. intros x Hx X. apply X. rewrite (fmap_in x Ee). rewrite (iv_cached I) in Hx.
    apply elem_of_list_fmap in Hx as (e & -> & Hx). apply elem_of_list_fmap_1. unfold all_elems. unfold cached_elems in Hx. rewrite !elem_of_app in *. tauto.
  - destruct Hs as (-> & -> & ->). pose proof (expire_books I) as Hb. unfold b_fresh in Hb. rewrite Hi in Hb. eapply inv_eq; [exact (inv_expired I)|].
    constructor; cbn [b_leave b_alive b_held b_cached b_recent b_max b_idle]; try done. by rewrite <- Hb.
  - destruct Hs as (-> & -> & ->). eapply inv_eq; [exact (inv_evict (inv_max n I))|]. by constructor.
  - destruct Hs as (-> & -> & ->). eapply inv_eq; [exact (inv_evict (inv_resize k v I Hw))|]. by constructor.
  - destruct Hs as (-> & -> & ->). pose proof (inv_idle (timeout_of t) I) as I1. pose proof (expire_books I1) as Hb. unfold b_fresh in Hb.
    eapply inv_eq; [exact (inv_expired I1)|].
    constructor; cbn [b_leave b_alive b_held b_cached b_recent b_max b_idle]; try done. cbn [b_cached] in Hb. rewrite <- Hb. unfold with_idle. cbn [q_lru q_tick q_idle]. destruct t; destruct (q_lru s); done.
Qed.
End lstep.
