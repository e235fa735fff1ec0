(** The books stay in step with the cache, call by call (proof-internal vocabulary). *)
From stdpp Require Import gmap.
From Verif Require Import Base Proto Lru LruSim LruOps LruOps2 LruSpec LruInv.
Local Open Scope Z_scope.
Set Implicit Arguments.
Local Arguments sum_Z : simpl never.
Local Arguments dead : simpl never.

Section books.
Context {V : Type} `{!EqDecision V}.
Implicit Types (c : lru V) (s : ideal V) (e : elem V) (b : books V) (o : op V).
Variable clk : nat -> Z.
Variable ord : hash_order.
Hypothesis clock : proper_clock clk.

Definition trip e : string * V * Z := (kv e, e_units e).
Definition stamp e : string * V * Z := (kv e, e_last e).
Definition count (x : string * V) (l : list (string * V)) : nat := length (filter (fun y => y = x) l).

Record Inv s b : Prop := {
  iv_shape : exists c, Rep c s;
  iv_alive : b_alive b ≡ₚ trip <$> all_elems s;
  iv_pins : forall e, e ∈ all_elems s -> e_pin e = Z.of_nat (count (kv e) (b_held b));
  iv_held : forall x, x ∈ b_held b -> x ∈ kv <$> all_elems s;
  iv_cached : b_cached b ≡ₚ kv <$> cached_elems s;
  iv_order : (stamp <$> q_lst s) `sublist_of` b_recent b;
  iv_stamps : forall e, e ∈ cached_elems s -> stamp e ∈ b_recent b;
  iv_uniq : NoDup (b_recent b).*1;
  iv_times : forall y, y ∈ b_recent b -> 0 <= y.2 <= clk (pred (q_tick s));
  iv_sorted : StronglySorted (fun x y => y.2 <= x.2) (b_recent b);
  iv_max : q_max s = b_max b;
  iv_idle : q_idle s = b_idle b }.

Arguments iv_pins {s b} _ _ _. Arguments iv_held {s b} _ _ _. Arguments iv_stamps {s b} _ _ _. Arguments iv_times {s b} _ _ _.
Record b_eq b b' : Prop := {
  be_alive : b_alive b ≡ₚ b_alive b'; be_held : b_held b = b_held b'; be_cached : b_cached b ≡ₚ b_cached b';
  be_recent : b_recent b = b_recent b'; be_max : b_max b = b_max b'; be_idle : b_idle b = b_idle b' }.
Lemma inv_eq s b b' : Inv s b -> b_eq b b' -> Inv s b'.
Proof.
  intros [I1 I2 I3 I4 I5 I6 I7 I8 I9 I10 I11 I12] [E1 E2 E3 E4 E5 E6].
  constructor; rewrite <- ?E1, <- ?E2, <- ?E3, <- ?E4, <- ?E5, <- ?E6; done.
Qed.

(** ** Helpers *)
Lemma filter_perm {A} (P : A -> Prop) `{!∀ x, Decision (P x)} (l a b' : list A) :
  l ≡ₚ a ++ b' -> (forall x, x ∈ a -> ~ P x) -> (forall x, x ∈ b' -> P x) -> filter P l ≡ₚ b'.
Proof.
  intros E Ha Hb. rewrite E, filter_app. replace (filter P a) with (@nil A).
  - cbn. rewrite filter_all; [done|]. done.
  - symmetry. clear -Ha. induction a as [|x a IH]; [done|]. rewrite filter_cons_False by (apply Ha; left). apply IH. intros y Hy. apply Ha. by right.
Qed.
Lemma shape_keys s : (exists c, Rep c s) -> NoDup (e_key <$> cached_elems s).
Proof. intros [c R]. by eapply rep_keys. Qed.
Lemma shape_vals s : (exists c, Rep c s) -> NoDup (e_value <$> all_elems s).
Proof. intros [c R]. by eapply rep_vals. Qed.
Lemma nodup_inj {A B} (g : A -> B) (l : list A) x y : NoDup (g <$> l) -> x ∈ l -> y ∈ l -> g x = g y -> x = y.
Proof.
  induction l as [|z l IH]; intros N H1 H2 E; [by apply elem_of_nil in H1|].
  csimpl in N. apply NoDup_cons in N as [N1 N2]. apply elem_of_cons in H1, H2.
  destruct H1 as [->|H1], H2 as [->|H2]; auto; exfalso; apply N1.
  - rewrite E. by apply elem_of_list_fmap_1.
  - rewrite <- E. by apply elem_of_list_fmap_1.
Qed.
Lemma sub_fmap {A B} (g : A -> B) (l1 l2 : list A) : l1 `sublist_of` l2 -> (g <$> l1) `sublist_of` (g <$> l2).
Proof. induction 1; csimpl; by constructor. Qed.
Lemma clk_mono i j : (i <= j)%nat -> clk i <= clk j.
Proof. apply clock. Qed.

(** ** Leaving *)
Definition b_leave (dk gk : list (string * V)) b : books V :=
  Books (filter (fun y => y.1 ∉ dk) (b_alive b)) (b_held b) (filter (fun x => x ∉ gk) (b_cached b)) (b_recent b) (b_max b) (b_idle b).

Lemma inv_leave s b gs s' : Inv s b -> leave s gs s' -> (exists c, Rep c s') -> Inv s' (b_leave (kv <$> dead gs) (kv <$> gs) b).
Proof.
  intros I L Hs. pose proof (leave_all L) as EA. pose proof (lv_cached L) as EC.
  pose proof (shape_vals (iv_shape I)) as NV. pose proof (shape_keys (iv_shape I)) as NK.
  assert (Hsub : forall e, e ∈ all_elems s' -> e ∈ all_elems s) by (intros e He; rewrite EA; apply elem_of_app; by right).
  assert (Hsubc : forall e, e ∈ cached_elems s' -> e ∈ cached_elems s) by (intros e He; rewrite EC; apply elem_of_app; by right).
  assert (NV' := NV). rewrite EA, fmap_app in NV'. apply NoDup_app in NV' as (_ & NV1 & _).
  assert (NK' := NK). rewrite EC, fmap_app in NK'. apply NoDup_app in NK' as (_ & NK1 & _).
  constructor; cbn [b_leave b_alive b_held b_cached b_recent b_max b_idle].
  - done.
  - apply (@filter_perm _ _ _ _ (trip <$> dead gs)).
    + rewrite <- fmap_app, <- EA. apply (iv_alive I).
    + intros y Hy. apply elem_of_list_fmap in Hy as (e & -> & He). intros H. apply H. cbn. by apply elem_of_list_fmap_1.
    + intros y Hy. apply elem_of_list_fmap in Hy as (e & -> & He). cbn. intros H. apply elem_of_list_fmap in H as (e' & E & He').
      apply (NV1 (e_value e')); [by apply elem_of_list_fmap_1|]. injection E as _ E. rewrite <- E. by apply elem_of_list_fmap_1.
  - intros e He. apply (iv_pins I). auto.
  - intros x Hx. pose proof (iv_held I _ Hx) as Hk. rewrite EA, fmap_app, elem_of_app in Hk. destruct Hk as [Hk|Hk]; [|done].
    exfalso. apply elem_of_list_fmap in Hk as (e & -> & He).
    assert (Hp : e_pin e = 0) by (unfold dead in He; by apply elem_of_list_filter in He as [He _]).
    assert (Hae : e ∈ all_elems s) by (rewrite EA; apply elem_of_app; by left).
    pose proof (iv_pins I _ Hae) as Hc. rewrite Hp in Hc. unfold count in Hc.
    assert (Hin : kv e ∈ filter (fun y => y = kv e) (b_held b)) by by apply elem_of_list_filter.
    destruct (filter (fun y => y = kv e) (b_held b)); [by apply elem_of_nil in Hin|cbn in Hc; lia].
  - apply (@filter_perm _ _ _ _ (kv <$> gs)).
    + rewrite <- fmap_app, <- EC. apply (iv_cached I).
    + intros y Hy H. by apply H.
    + intros y Hy. apply elem_of_list_fmap in Hy as (e & -> & He). intros H. apply elem_of_list_fmap in H as (e' & E & He').
      apply (NK1 (e_key e')); [by apply elem_of_list_fmap_1|]. injection E as E _. rewrite <- E. by apply elem_of_list_fmap_1.
  - etrans; [|apply (iv_order I)]. apply sub_fmap, (lv_list L).
  - intros e He. apply (iv_stamps I). auto.
  - apply (iv_uniq I).
  - intros y Hy. pose proof (iv_times I _ Hy) as Ht. pose proof (lv_tick L) as Hm.
    pose proof (@clk_mono (pred (q_tick s)) (pred (q_tick s')) ltac:(lia)). lia.
  - apply (iv_sorted I).
  - rewrite (lv_max L). apply (iv_max I).
  - rewrite (lv_idle L). apply (iv_idle I).
Qed.

(** ** Recency *)
Definition use (x : string * V) (t : Z) (l : list (string * V * Z)) : list (string * V * Z) :=
  (x, t) :: filter (fun y => y.1 <> x) l.
Lemma use_uniq x t l : NoDup l.*1 -> NoDup (use x t l).*1.
Proof.
  intros N. unfold use. csimpl. apply NoDup_cons. split.
  - intros H. apply elem_of_list_fmap in H as (y & E & H). apply elem_of_list_filter in H as [H _]. by rewrite <- E in H.
  - clear -N. induction l as [|y l IH]; [constructor|]. csimpl in N. apply NoDup_cons in N as [N1 N2]. rewrite filter_cons.
    destruct (decide _); [|by apply IH]. csimpl. apply NoDup_cons. split; [|by apply IH].
    intros H. apply N1. apply elem_of_list_fmap in H as (z & -> & H). apply elem_of_list_filter in H as [_ H]. by apply elem_of_list_fmap_1.
Qed.
Lemma use_sorted x t l : StronglySorted (fun x y : string * V * Z => y.2 <= x.2) l -> (forall y, y ∈ l -> y.2 <= t) ->
  StronglySorted (fun x y : string * V * Z => y.2 <= x.2) (use x t l).
Proof.
  intros S H. unfold use. constructor.
  - clear H. induction S as [|y l S IH F]; [constructor|]. rewrite filter_cons. destruct (decide _); [|done]. constructor; [done|].
    apply Forall_forall. intros z Hz. apply elem_of_list_filter in Hz as [_ Hz]. rewrite Forall_forall in F. by apply F.
  - apply Forall_forall. intros z Hz. apply elem_of_list_filter in Hz as [_ Hz]. cbn. by apply H.
Qed.
Lemma sub_use x (l' l : list (string * V * Z)) : l' `sublist_of` l -> (forall y, y ∈ l' -> y.1 <> x) -> l' `sublist_of` filter (fun y => y.1 <> x) l.
Proof.
  intros S. induction S as [|y a b' S IH|y a b' S IH]; intros H.
  - constructor.
  - rewrite filter_cons_True by (apply H; left). constructor. apply IH. intros z Hz. apply H. by right.
  - rewrite filter_cons. destruct (decide _); [constructor|]; by apply IH.
Qed.
Lemma use_elem x t l y : y ∈ l -> y.1 <> x -> y ∈ use x t l.
Proof. intros H N. right. by apply elem_of_list_filter. Qed.

(** ** One cached entry changes its pins *)
Record retouch s e e' s' : Prop := {
  rt_perm : exists R, cached_elems s ≡ₚ e :: R /\ cached_elems s' ≡ₚ e' :: R;
  rt_def : q_def s' = q_def s; rt_kv : kv e' = kv e; rt_units : e_units e' = e_units e;
  rt_lru : q_lru s' = q_lru s; rt_max : q_max s' = q_max s; rt_idle : q_idle s' = q_idle s;
  rt_tick : (q_tick s <= q_tick s')%nat }.

Lemma retouch_all s e e' s' : retouch s e e' s' ->
  exists R, all_elems s ≡ₚ e :: R /\ all_elems s' ≡ₚ e' :: R /\ forall x, x ∈ cached_elems s' -> x = e' \/ (x ∈ cached_elems s /\ x ∈ R).
Proof.
  intros [(R & E1 & E2) Hd _ _ _ _ _ _]. exists (R ++ q_def s). unfold all_elems. rewrite !app_assoc. fold (cached_elems s) (cached_elems s').
  rewrite Hd, E1, E2. split_and!; [done|done|]. intros x Hx. rewrite E2 in Hx. apply elem_of_cons in Hx as [->|Hx]; [by left|].
  right. rewrite E1. split; [by right|]. apply elem_of_app. by left.
Qed.

Definition b_touch (held : list (string * V)) (recent : list (string * V * Z)) b : books V :=
  Books (b_alive b) held (b_cached b) recent (b_max b) (b_idle b).
Lemma inv_retouch s b e e' s' held recent : Inv s b -> retouch s e e' s' -> (exists c, Rep c s') ->
  (forall x, Z.of_nat (count x held) = Z.of_nat (count x (b_held b)) + (if decide (x = kv e) then e_pin e' - e_pin e else 0)) ->
  (stamp <$> q_lst s') `sublist_of` recent -> (forall x, x ∈ cached_elems s' -> stamp x ∈ recent) -> NoDup recent.*1 ->
  (forall y, y ∈ recent -> 0 <= y.2 <= clk (pred (q_tick s'))) -> StronglySorted (fun x y => y.2 <= x.2) recent ->
  Inv s' (b_touch held recent b).
Proof.
  intros I T Hs Hh Ho Hst Hu Ht Hso. destruct (retouch_all T) as (R & EA & EA' & _). destruct (rt_perm T) as (R' & EC & EC').
  pose proof (shape_vals (iv_shape I)) as NV. rewrite EA in NV. csimpl in NV. apply NoDup_cons in NV as [NV _].
  constructor; cbn [b_touch b_alive b_held b_cached b_recent b_max b_idle]; try done.
  - rewrite (iv_alive I), EA, EA'. csimpl. unfold trip. rewrite (rt_kv T), (rt_units T). done.
  - intros x Hx. rewrite Hh. rewrite EA' in Hx. apply elem_of_cons in Hx as [->|Hx].
    + rewrite (rt_kv T), decide_True by done. rewrite <- (iv_pins I e) by (rewrite EA; left). lia.
    + rewrite decide_False. { rewrite <- (iv_pins I x) by (rewrite EA; by right). lia. }
      intros E. apply NV. injection E as _ E. rewrite <- E. by apply elem_of_list_fmap_1.
  - intros x Hx. destruct (decide (x = kv e)) as [->|N].
    + rewrite EA'. csimpl. rewrite (rt_kv T). left.
    + specialize (Hh x). rewrite decide_False in Hh by done.
      assert (Hin : x ∈ b_held b).
      { unfold count in Hh. assert (X : x ∈ filter (fun y => y = x) held) by by apply elem_of_list_filter.
        destruct (filter (fun y => y = x) held); [by apply elem_of_nil in X|]. cbn in Hh.
        destruct (filter (fun y => y = x) (b_held b)) as [|z l'] eqn:E; [cbn in Hh; lia|].
        assert (Y : z ∈ filter (fun y => y = x) (b_held b)) by (rewrite E; left). apply elem_of_list_filter in Y as [-> Y]. done. }
      apply (iv_held I) in Hin. rewrite EA in Hin. csimpl in Hin. rewrite EA'. csimpl. rewrite (rt_kv T). done.
  - rewrite (iv_cached I), EC, EC'. csimpl. by rewrite (rt_kv T).
  - rewrite (rt_max T). apply (iv_max I).
  - rewrite (rt_idle T). apply (iv_idle I).
Qed.

Lemma count_cons x y l : count x (y :: l) = ((if decide (y = x) then 1 else 0) + count x l)%nat.
Proof. unfold count. rewrite filter_cons. by destruct (decide (y = x)). Qed.
Lemma count_drop x y l : x ∈ l -> Z.of_nat (count y (drop_one x l)) = Z.of_nat (count y l) + (if decide (y = x) then -1 else 0).
Proof.
  induction l as [|z l IH]; intros H; [by apply elem_of_nil in H|]. cbn [drop_one]. destruct (decide (z = x)) as [Ez|N].
  - rewrite count_cons. destruct (decide (z = y)), (decide (y = x)); try congruence; lia.
  - apply elem_of_cons in H as [->|H]; [done|]. rewrite !count_cons. specialize (IH H). destruct (decide (z = y)); lia.
Qed.
Lemma drop_elem (x y : string * V) l : y ∈ drop_one x l -> y ∈ l.
Proof.
  induction l as [|z l IH]; [done|]. cbn [drop_one]. destruct (decide (z = x)); intros H; [by right|].
  apply elem_of_cons in H as [->|H]; [left|right; auto].
Qed.

Lemma stamp_at_key k (g : elem V -> elem V) l : (forall x, stamp (g x) = stamp x) -> stamp <$> at_key k g l = stamp <$> l.
Proof. intros H. unfold at_key. rewrite <- list_fmap_compose. apply list_fmap_ext. intros i x _. cbn. destruct (decide _); auto. Qed.
Lemma stamp_at_kv k v (g : elem V -> elem V) l : (forall x, stamp (g x) = stamp x) -> stamp <$> at_kv k v g l = stamp <$> l.
Proof. intros H. unfold at_kv. rewrite <- list_fmap_compose. apply list_fmap_ext. intros i x _. cbn. destruct (decide _); auto. Qed.

Lemma pin_retouch c s e : Rep c s -> e ∈ cached_elems s ->
  retouch s e (pinned e) (i_pin (e_key e) e s) /\ (stamp <$> q_lst (i_pin (e_key e) e s)) `sublist_of` (stamp <$> q_lst s).
Proof.
  intros (L & P & D & A) H. destruct (split_keys e A) as [K1 K2]. unfold i_pin.
  destruct (cached_cases A H) as [(La & id & Lb & -> & HL)|(Pa & id & Pb & -> & Hlru & HP & Hpp)].
  - destruct (K1 La id Lb eq_refl) as (Q1 & Q2 & Q3). destruct (q_lru s) eqn:El.
    + split; [|apply sub_fmap; cbn; apply sub_filter].
      constructor; cbn [with_lists q_lst q_pin q_def q_lru q_max q_idle q_tick]; try done.
      exists (La.*2 ++ Lb.*2 ++ P.*2). unfold cached_elems. cbn [with_lists q_lst q_pin q_def].
      rewrite Q1, Q2, (ab_lst (proj1 A)), (ab_pin (proj1 A)), fmap_app. csimpl. split; solve_Permutation.
    + split; [|cbn [with_lists q_lst]; rewrite stamp_at_key by done; done].
      constructor; cbn [with_lists q_lst q_pin q_def q_lru q_max q_idle q_tick]; try done.
      exists (La.*2 ++ Lb.*2 ++ P.*2). unfold cached_elems. cbn [with_lists q_lst q_pin q_def].
      rewrite Q3, (ab_lst (proj1 A)), (ab_pin (proj1 A)), fmap_app. csimpl. split; solve_Permutation.
  - rewrite Hlru. destruct (K2 Pa id Pb eq_refl) as (Q1 & Q2).
    split; [|apply sub_fmap; cbn; apply sub_filter].
    constructor; cbn [with_lists q_lst q_pin q_def q_lru q_max q_idle q_tick]; try done.
    exists (L.*2 ++ Pa.*2 ++ Pb.*2). unfold cached_elems. cbn [with_lists q_lst q_pin q_def].
    rewrite Q1, Q2, (ab_lst (proj1 A)), (ab_pin (proj1 A)), fmap_app. csimpl. split; solve_Permutation.
Qed.

Definition released e s : elem V := if q_lru s then set_pin (e_pin e - 1) (set_last (clk (q_tick s)) e) else unpinned e.
Lemma unpin_retouch c s e : Rep c s -> e ∈ cached_elems s -> 0 < e_pin e ->
  retouch s e (released e s) (i_unpin clk (e_key e) e s) /\
  (if q_lru s then stamp e ∉ stamp <$> q_lst s /\ q_tick (i_unpin clk (e_key e) e s) = S (q_tick s) /\
      ((e_pin e = 1 /\ q_lst (i_unpin clk (e_key e) e s) = released e s :: q_lst s) \/ (e_pin e <> 1 /\ q_lst (i_unpin clk (e_key e) e s) = q_lst s))
   else stamp <$> q_lst (i_unpin clk (e_key e) e s) = stamp <$> q_lst s /\ q_tick (i_unpin clk (e_key e) e s) = q_tick s).
Proof.
  intros R H Hp. pose proof (rep_vals R) as NV. destruct R as (L & P & D & A). destruct (split_keys e A) as [K1 K2]. unfold i_unpin, released.
  destruct (cached_cases A H) as [(La & id & Lb & -> & HL)|(Pa & id & Pb & -> & Hlru & HP & Hpp)].
  - destruct (K1 La id Lb eq_refl) as (Q1 & Q2 & Q3). destruct (q_lru s) eqn:El.
    + exfalso. pose proof (ab_lstpin (proj1 A) El) as F. rewrite Forall_forall in F. specialize (F e HL). cbn in F. lia.
    + split; [|cbn [with_lists q_lst q_tick]; rewrite stamp_at_key by done; done].
      constructor; cbn [with_lists q_lst q_pin q_def q_lru q_max q_idle q_tick]; try done.
      exists (La.*2 ++ Lb.*2 ++ P.*2). unfold cached_elems. cbn [with_lists q_lst q_pin q_def].
      rewrite Q3, (ab_lst (proj1 A)), (ab_pin (proj1 A)), fmap_app. csimpl. split; solve_Permutation.
  - rewrite Hlru. destruct (K2 Pa id Pb eq_refl) as (Q1 & Q2). rewrite Q2.
    assert (Hn : stamp e ∉ stamp <$> q_lst s).
    { intros X. apply elem_of_list_fmap in X as (x & E & X). unfold all_elems in NV. rewrite fmap_app in NV. apply NoDup_app in NV as (_ & NV & _).
      apply (NV (e_value x)); [by apply elem_of_list_fmap_1|]. injection E as _ E _. rewrite <- E. apply elem_of_list_fmap_1. apply elem_of_app. by left. }
    assert (Hperm : cached_elems s ≡ₚ e :: L.*2 ++ Pa.*2 ++ Pb.*2).
    { unfold cached_elems. rewrite (ab_lst (proj1 A)), (ab_pin (proj1 A)), fmap_app. csimpl. solve_Permutation. }
    destruct (e_pin e =? 1) eqn:E1.
    + apply Z.eqb_eq in E1. split.
      * constructor; cbn [with_tick with_lists q_lst q_pin q_def q_lru q_max q_idle q_tick]; try done; [|lia].
        eexists. split; [exact Hperm|]. unfold cached_elems. cbn [with_tick with_lists q_lst q_pin q_def]. rewrite (ab_lst (proj1 A)). csimpl. solve_Permutation.
      * split; [done|]. split; [done|]. left. done.
    + apply Z.eqb_neq in E1. split.
      * constructor; cbn [with_tick with_lists q_lst q_pin q_def q_lru q_max q_idle q_tick]; try done; [|lia].
        eexists. split; [exact Hperm|]. unfold cached_elems. cbn [with_tick with_lists q_lst q_pin q_def]. rewrite (ab_lst (proj1 A)). csimpl. solve_Permutation.
      * split; [done|]. split; [done|]. right. done.
Qed.

Lemma inv_pin s b e : Inv s b -> e ∈ cached_elems s -> Inv (i_pin (e_key e) e s) (b_touch (kv e :: b_held b) (b_recent b) b).
Proof.
  intros I H. destruct (iv_shape I) as [c R]. destruct (pin_retouch R H) as [T Ho].
  eapply inv_retouch; [exact I|exact T| | | | |apply I| |apply I].
  - destruct (pin_hit (fun (u : unit) _ => Ok u) clk R H) as (c' & _ & P1 & _). eauto.
  - intros x. rewrite count_cons. unfold pinned. cbn [set_pin e_pin]. destruct (decide (kv e = x)), (decide (x = kv e)); try congruence; lia.
  - etrans; [exact Ho|]. apply (iv_order I).
  - intros x Hx. destruct (retouch_all T) as (R' & _ & _ & Hc). destruct (Hc _ Hx) as [Ex|[Hx' _]].
    + rewrite Ex. apply (iv_stamps I e H).
    + by apply (iv_stamps I).
  - intros y Hy. pose proof (iv_times I _ Hy) as Ht. pose proof (@clk_mono (pred (q_tick s)) (pred (q_tick (i_pin (e_key e) e s)))) as Hm.
    pose proof (rt_tick T). specialize (Hm ltac:(lia)). lia.
Qed.

Lemma inv_unpin s b e : Inv s b -> e ∈ cached_elems s -> 0 < e_pin e ->
  Inv (i_unpin clk (e_key e) e s) (b_touch (drop_one (kv e) (b_held b)) (if q_lru s then use (kv e) (clk (q_tick s)) (b_recent b) else b_recent b) b).
Proof.
  intros I H Hp. destruct (iv_shape I) as [c R]. destruct (unpin_retouch R H Hp) as [T Ho].
  assert (Hh : kv e ∈ b_held b).
  { pose proof (iv_pins I e (cached_all _ H)) as X. unfold count in X. destruct (filter (fun y => y = kv e) (b_held b)) as [|z l] eqn:E; [cbn in X; lia|].
    assert (Y : z ∈ filter (fun y => y = kv e) (b_held b)) by (rewrite E; left). apply elem_of_list_filter in Y as [-> Y]. done. }
  assert (Hle : forall y, y ∈ b_recent b -> 0 <= y.2 <= clk (q_tick s)).
  { intros y Hy. pose proof (iv_times I _ Hy). pose proof (@clk_mono (pred (q_tick s)) (q_tick s) ltac:(lia)). lia. }
  pose proof (shape_vals (iv_shape I)) as NV.
  destruct (retouch_all T) as (R' & EA & _ & Hc).
  assert (Hne : forall x, x ∈ R' -> kv x <> kv e).
  { intros x Hx E. rewrite EA in NV. csimpl in NV. apply NoDup_cons in NV as [NV _]. apply NV. injection E as _ E. rewrite <- E. by apply elem_of_list_fmap_1. }
  eapply inv_retouch; [exact I|exact T| | | | | | |].
  - destruct (unpin_runs (fun (u : unit) _ => Ok u) clk R H Hp) as (c' & P1 & _). eauto.
  - intros x. rewrite count_drop by done. unfold released. destruct (q_lru s); cbn [unpinned set_pin set_last e_pin]; destruct (decide (x = kv e)); lia.
  - destruct (q_lru s) eqn:El.
    + destruct Ho as (Hn & _ & Ho).
      assert (Hsub : (stamp <$> q_lst s) `sublist_of` filter (fun y => y.1 <> kv e) (b_recent b)).
      { apply sub_use; [apply (iv_order I)|]. intros y Hy E. apply elem_of_list_fmap in Hy as (x & -> & Hx). cbn in E.
        assert (Hxe : x = e).
        { eapply (nodup_inj e_value); [exact (shape_vals (iv_shape I))| |apply cached_all, H|by injection E].
          unfold all_elems. apply elem_of_app. by left. }
        subst x. apply Hn. by apply elem_of_list_fmap_1. }
      destruct Ho as [[_ ->]|[_ ->]].
      * unfold use. csimpl. assert (Est : stamp (released e s) = (kv e, clk (q_tick s))) by (unfold released; rewrite El; done).
        rewrite Est. by constructor.
      * unfold use. by constructor.
    + destruct Ho as [-> _]. apply (iv_order I).
  - intros x Hx0. destruct (Hc _ Hx0) as [Ex|[Hx Hxr]].
    + rewrite Ex. destruct (q_lru s) eqn:El.
      * unfold use, released. rewrite El. left.
      * unfold released. rewrite El. apply (iv_stamps I e H).
    + destruct (q_lru s); [|by apply (iv_stamps I)]. apply use_elem; [by apply (iv_stamps I)|]. by apply Hne.
  - destruct (q_lru s); [apply use_uniq|]; apply I.
  - intros y Hy. destruct (q_lru s) eqn:El.
    + destruct Ho as (_ & -> & _). cbn [pred]. apply elem_of_cons in Hy as [->|Hy].
      * cbn. split; [apply clock|lia].
      * apply elem_of_list_filter in Hy as [_ Hy]. auto.
    + destruct Ho as (_ & ->). by apply (iv_times I).
  - destruct (q_lru s); [|apply I]. apply use_sorted; [apply I|]. intros y Hy. apply Hle in Hy. lia.
Qed.

(** ** A new entry *)
Definition b_new (k : string) (v : V) (u t : Z) b : books V :=
  Books ((k, v, u) :: b_alive b) ((k, v) :: b_held b) ((k, v) :: b_cached b) (use (k, v) t (b_recent b)) (b_max b) (b_idle b).
Lemma add_perm e s : cached_elems (i_add e s) ≡ₚ e :: cached_elems s /\ all_elems (i_add e s) ≡ₚ e :: all_elems s.
Proof.
  unfold i_add, cached_elems, all_elems. destruct (q_lru s); cbn [with_lists q_lst q_pin q_def].
  - split; [symmetry; apply Permutation_middle|]. rewrite <- app_comm_cons. symmetry. apply Permutation_middle.
  - done.
Qed.
Lemma inv_new s b k v u : Inv s b -> 0 <= u -> k ∉ e_key <$> cached_elems s -> v ∉ e_value <$> all_elems s ->
  Inv (i_add (new_elem k v u (clk (q_tick s))) (with_tick (S (q_tick s)) s)) (b_new k v u (clk (q_tick s)) b).
Proof.
  intros I Hu Hk Hv. set (e := new_elem k v u (clk (q_tick s))). set (s1 := with_tick (S (q_tick s)) s).
  destruct (add_perm e s1) as [EC EA]. change (cached_elems s1) with (cached_elems s) in EC. change (all_elems s1) with (all_elems s) in EA.
  assert (Hle : forall y, y ∈ b_recent b -> 0 <= y.2 <= clk (q_tick s)).
  { intros y Hy. pose proof (iv_times I _ Hy). pose proof (@clk_mono (pred (q_tick s)) (q_tick s) ltac:(lia)). lia. }
  assert (Hnk : forall x, x ∈ all_elems s -> kv x <> (k, v)).
  { intros x Hx E. apply Hv. injection E as _ <-. by apply elem_of_list_fmap_1. }
  assert (Hnh : (k, v) ∉ b_held b).
  { intros X. apply (iv_held I) in X. apply elem_of_list_fmap in X as (x & E & X). by apply (Hnk x). }
  assert (Et : q_tick (i_add e s1) = S (q_tick s)) by (unfold i_add; by destruct (q_lru s1)).
  constructor; cbn [b_new b_alive b_held b_cached b_recent b_max b_idle].
  - destruct (iv_shape I) as [c R]. destruct (add_elem e (rep_tick (S (q_tick s)) R)) as [P1 _]; [done|done|done|done|]. eauto.
  - rewrite EA. csimpl. unfold trip at 1. cbn. constructor. apply (iv_alive I).
  - intros x Hx. rewrite EA in Hx. rewrite count_cons. apply elem_of_cons in Hx as [->|Hx].
    + cbn. rewrite decide_True by done. unfold count.
      assert (X : filter (fun y => y = (k, v)) (b_held b) = []).
      { destruct (filter (fun y => y = (k, v)) (b_held b)) as [|z l] eqn:E; [done|]. exfalso. apply Hnh.
        assert (Y : z ∈ filter (fun y => y = (k, v)) (b_held b)) by (rewrite E; left). apply elem_of_list_filter in Y as [-> Y]. done. }
      change (kv e) with (k, v). by rewrite X.
    + rewrite decide_False by (intros E; by apply (Hnk x)). rewrite (iv_pins I x Hx). lia.
  - intros x Hx. rewrite EA. csimpl. apply elem_of_cons in Hx as [->|Hx]; [left|right]. by apply (iv_held I).
  - rewrite EC. csimpl. by rewrite (iv_cached I).
  - assert (Hsub : (stamp <$> q_lst s) `sublist_of` filter (fun y => y.1 <> (k, v)) (b_recent b)).
    { apply sub_use; [apply (iv_order I)|]. intros y Hy E. apply elem_of_list_fmap in Hy as (x & -> & Hx). cbn in E.
      apply (Hnk x); [|done]. unfold all_elems. apply elem_of_app. by left. }
    unfold use, i_add. destruct (q_lru s1); cbn [with_lists q_lst]; by constructor.
  - intros x Hx. rewrite EC in Hx. apply elem_of_cons in Hx as [->|Hx]; [left|].
    apply use_elem; [by apply (iv_stamps I)|]. apply Hnk. by apply cached_all.
  - apply use_uniq, I.
  - intros y Hy. rewrite Et. cbn [pred]. apply elem_of_cons in Hy as [->|Hy].
    + cbn. split; [apply clock|lia].
    + apply elem_of_list_filter in Hy as [_ Hy]. auto.
  - apply use_sorted; [apply I|]. intros y Hy. apply Hle in Hy. lia.
  - unfold i_add. destruct (q_lru s1); apply (iv_max I).
  - unfold i_add. destruct (q_lru s1); apply (iv_idle I).
Qed.

(** ** Sizes and settings *)
Definition b_resize (k : string) (v : V) (u : Z) b : books V :=
  Books ((fun y => if decide (y.1 = (k, v)) then (k, v, u) else y) <$> b_alive b) (b_held b) (b_cached b) (b_recent b) (b_max b) (b_idle b).
Lemma resize_all k v u s : all_elems (i_resize k v u s) = at_kv k v (sized u) (all_elems s) /\ cached_elems (i_resize k v u s) = at_kv k v (sized u) (cached_elems s).
Proof. unfold all_elems, cached_elems, i_resize. cbn [with_lists q_lst q_pin q_def]. by rewrite !at_kv_app. Qed.
Lemma at_kv_elem k v u l x : x ∈ at_kv k v (sized u) l -> exists y, y ∈ l /\ kv y = kv x /\ stamp y = stamp x /\ e_pin y = e_pin x.
Proof.
  intros H. apply elem_of_list_fmap in H as (y & -> & H). exists y. split; [done|]. by destruct (decide _).
Qed.
Lemma inv_resize s b k v u : Inv s b -> 0 <= u -> Inv (i_resize k v u s) (b_resize k v u b).
Proof.
  intros I Hu. destruct (resize_all k v u s) as [EA EC].
  assert (Hkv : forall l, kv <$> at_kv k v (sized u) l = kv <$> l).
  { intros l. unfold at_kv. rewrite <- list_fmap_compose. apply list_fmap_ext. intros i x _. cbn. by destruct (decide _). }
  constructor; cbn [b_resize b_alive b_held b_cached b_recent b_max b_idle].
  - destruct (iv_shape I) as [c R]. destruct (op_resize clk k v R Hu) as (c' & _ & P1). eauto.
  - rewrite (iv_alive I), EA. unfold at_kv. rewrite <- !list_fmap_compose. apply Permutation_refl'. apply list_fmap_ext. intros i x _. cbn.
    unfold trip, kv. cbn [fst]. destruct (decide ((e_key x, e_value x) = (k, v))) as [E|E], (decide (e_key x = k /\ e_value x = v)) as [E2|E2].
    + destruct E2 as [<- <-]. done.
    + exfalso. apply E2. by injection E.
    + exfalso. apply E. destruct E2. congruence.
    + done.
  - intros x Hx. rewrite EA in Hx. apply at_kv_elem in Hx as (y & Hy & E & _ & <-). rewrite <- E. by apply (iv_pins I).
  - intros x Hx. rewrite EA, Hkv. by apply (iv_held I).
  - rewrite EC, Hkv. apply (iv_cached I).
  - unfold i_resize. cbn [with_lists q_lst]. rewrite stamp_at_kv by done. apply (iv_order I).
  - intros x Hx. rewrite EC in Hx. apply at_kv_elem in Hx as (y & Hy & _ & <- & _). by apply (iv_stamps I).
  - apply I.
  - apply (iv_times I).
  - apply I.
  - apply (iv_max I).
  - apply (iv_idle I).
Qed.
Lemma inv_max s b n : Inv s b -> Inv (with_max n s) (Books (b_alive b) (b_held b) (b_cached b) (b_recent b) n (b_idle b)).
Proof. intros I. destruct (iv_shape I) as [c R]. constructor; try apply I; [|done]. exists (set_max n c). by apply rep_max. Qed.
Lemma inv_idle s b n : Inv s b -> Inv (with_idle n s) (Books (b_alive b) (b_held b) (b_cached b) (b_recent b) (b_max b) n).
Proof. intros I. destruct (iv_shape I) as [c R]. constructor; try apply I; [|done]. exists (set_idle n c). by apply rep_idle. Qed.

(** ** Timing *)
Lemma inv_timed s b : Inv s b -> Timed s.
Proof.
  intros I. pose proof (iv_order I) as Ho. pose proof (iv_sorted I) as So. split.
  - revert Ho So. generalize (q_lst s) (b_recent b). intros l r Ho So.
    remember (stamp <$> l) as l2 eqn:El. revert l El. induction Ho as [|x a b' Ho IH|x a b' Ho IH]; intros l El.
    + symmetry in El. apply fmap_nil_inv in El as ->. constructor.
    + destruct l as [|e l]; [done|]. csimpl in El. injection El as -> ->. apply StronglySorted_inv in So as [So F].
      constructor; [by apply IH|]. apply Forall_forall. intros y Hy. rewrite Forall_forall in F. unfold newer.
      apply (F (stamp y)). eapply elem_of_submseteq; [|apply sublist_submseteq, Ho]. by apply elem_of_list_fmap_1.
    + apply StronglySorted_inv in So as [So _]. by apply IH.
  - apply Forall_forall. intros e He. apply (iv_times I (stamp e)). apply (iv_stamps I). unfold cached_elems. apply elem_of_app. by left.
Qed.
End books.
