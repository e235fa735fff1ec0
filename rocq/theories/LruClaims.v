(** The claims about the cache in the user's terms (proof-internal vocabulary). *)
From stdpp Require Import gmap.
From Verif Require Import Base Proto Lru LruSim LruOps LruOps2 LruSpec LruInv LruBooks LruStep LruProofs.
Local Open Scope Z_scope.
Set Implicit Arguments.
Local Arguments sum_Z : simpl never.
Local Arguments dead : simpl never.
Arguments iv_pins {V EqDecision0 clk s b} _ _ _. Arguments iv_held {V EqDecision0 clk s b} _ _ _.
Arguments iv_stamps {V EqDecision0 clk s b} _ _ _. Arguments iv_times {V EqDecision0 clk s b} _ _ _.

Section claims.
Context {V : Type} `{!EqDecision V}.
Implicit Types (c : lru V) (s : ideal V) (e : elem V) (b : books V) (o : op V).
Variable clk : nat -> Z.
Variable ord : hash_order.
Hypothesis clock : proper_clock clk.
Notation Inv := (Inv clk).

(** ** Counters *)
Lemma held_pin s b e : Inv s b -> e ∈ all_elems s -> 0 < e_pin e <-> kv e ∈ b_held b.
Proof.
  intros I H. rewrite (iv_pins I e H). unfold count. split.
  - intros X. destruct (filter (fun y => y = kv e) (b_held b)) as [|z l] eqn:E; [cbn in X; lia|].
    assert (Y : z ∈ filter (fun y => y = kv e) (b_held b)) by (rewrite E; left). by apply elem_of_list_filter in Y as [-> Y].
  - intros X. assert (Y : kv e ∈ filter (fun y => y = kv e) (b_held b)) by by apply elem_of_list_filter.
    destruct (filter _ _); [by apply elem_of_nil in Y|cbn; lia].
Qed.
Lemma all_cached s : all_elems s ≡ₚ cached_elems s ++ q_def s.
Proof. unfold all_elems. by rewrite app_assoc. Qed.
Lemma cached_all s e : e ∈ cached_elems s -> e ∈ all_elems s.
Proof. intros H. rewrite all_cached. apply elem_of_app. by left. Qed.
Lemma def_all s e : e ∈ q_def s -> e ∈ all_elems s.
Proof. intros H. rewrite all_cached. apply elem_of_app. by right. Qed.
Lemma def_not_cached s b e : Inv s b -> e ∈ q_def s -> kv e ∉ b_cached b.
Proof.
  intros I H X. rewrite (iv_cached I) in X. apply elem_of_list_fmap in X as (x & E & X). destruct (iv_shape I) as [c R].
  pose proof (rep_vals R) as N. rewrite all_cached, fmap_app in N. apply NoDup_app in N as (_ & N & _).
  apply (N (e_value x)); [by apply elem_of_list_fmap_1|]. injection E as _ <-. by apply elem_of_list_fmap_1.
Qed.
Lemma in_cached s b e : Inv s b -> e ∈ all_elems s -> kv e ∈ b_cached b -> e ∈ cached_elems s.
Proof.
  intros I H X. rewrite all_cached in H. apply elem_of_app in H as [H|H]; [done|]. by apply (def_not_cached I) in X.
Qed.
Lemma cached_kv s b e : Inv s b -> e ∈ cached_elems s -> kv e ∈ b_cached b.
Proof. intros I H. rewrite (iv_cached I). by apply elem_of_list_fmap_1. Qed.

Lemma sum_filter (P : string * V * Z -> Prop) `{!∀ x, Decision (P x)} (l : list (elem V)) :
  size_of_all (filter P (trip <$> l)) = sum_Z ((fun e => if decide (P (trip e)) then e_units e else 0) <$> l).
Proof.
  unfold size_of_all. induction l as [|x l IH]; [done|]. csimpl. rewrite filter_cons, sum_Z_cons.
  destruct (decide (P (trip x))); [csimpl; rewrite sum_Z_cons|]; rewrite IH; cbn; lia.
Qed.
Lemma sum_ext (f g : elem V -> Z) (l : list (elem V)) : (forall x, x ∈ l -> f x = g x) -> sum_Z (f <$> l) = sum_Z (g <$> l).
Proof.
  induction l as [|x l IH]; intros H; [done|]. csimpl. rewrite !sum_Z_cons, (H x), IH; [done| |left]. intros y Hy. apply H. by right.
Qed.
Lemma sum_zero (l : list (elem V)) (f : elem V -> Z) : (forall x, x ∈ l -> f x = 0) -> sum_Z (f <$> l) = 0.
Proof.
  induction l as [|x l IH]; intros H; [done|]. csimpl. rewrite sum_Z_cons, (H x), IH; [done| |left]. intros y Hy. apply H. by right.
Qed.
Lemma size_perm (l1 l2 : list (string * V * Z)) : l1 ≡ₚ l2 -> size_of_all l1 = size_of_all l2.
Proof. intros E. apply sum_Z_perm. by rewrite E. Qed.

Lemma size_is c s b : Rep c s -> Inv s b -> Size c = size_of_all (b_alive b).
Proof.
  intros (L & P & D & A & _) I. unfold Size. rewrite (ab_units A). rewrite (size_perm (iv_alive I)). unfold size_of_all, total.
  by rewrite <- list_fmap_compose.
Qed.
Lemma entries_is c s b : Rep c s -> Inv s b -> Entries c = Z.of_nat (length (b_cached b)).
Proof.
  intros (L & P & D & A & T) I. unfold Entries. f_equal. unfold size, map_size.
  rewrite T, (iv_cached I). unfold tab, cached_elems. rewrite (ab_lst A), (ab_pin A). by rewrite !fmap_length, !app_length, !fmap_length.
Qed.
Lemma pinned_is c s b : Rep c s -> Inv s b -> PinnedSize c = size_of_all (filter (fun y => y.1 ∈ b_cached b /\ y.1 ∈ b_held b) (b_alive b)).
Proof.
  intros (L & P & D & A & T) I. unfold PinnedSize. rewrite (ab_pinned A).
  assert (E : filter (fun y : string * V * Z => y.1 ∈ b_cached b /\ y.1 ∈ b_held b) (b_alive b) ≡ₚ filter (fun y => y.1 ∈ b_cached b /\ y.1 ∈ b_held b) (trip <$> all_elems s)) by by rewrite (iv_alive I).
  rewrite (size_perm E), sum_filter. rewrite (sum_Z_perm (fmap_Permutation _ _ _ (all_cached s))). rewrite fmap_app, sum_Z_app.
  rewrite (sum_zero (l := q_def s)).
  - rewrite Z.add_0_r. unfold pinned_part. apply sum_ext. intros e He. cbn. pose proof (held_pin I (cached_all _ He)) as X.
    destruct (0 <? e_pin e) eqn:E0; [apply Z.ltb_lt in E0|apply Z.ltb_ge in E0]; destruct (decide _) as [Y|Y]; try done.
    + exfalso. apply Y. split; [by apply (cached_kv I)|]. by apply X.
    + exfalso. destruct Y as [_ Y]. apply X in Y. lia.
  - intros e He. cbn. rewrite decide_False; [done|]. intros [Y _]. by apply (def_not_cached I He).
Qed.

Lemma deferred_perm c s L P D : Core c s L P D -> deferred_ids c ≡ₚ D.*1.
Proof.
  intros A. pose proof (core_ids A) as N. rewrite !fmap_app in N. apply NoDup_app in N as (_ & _ & N). apply NoDup_app in N as (_ & _ & N).
  assert (Nk : forall k, NoDup (of_key k D)).
  { intros k. unfold of_key. clear -N. induction D as [|x D IH]; [constructor|]. csimpl in N. apply NoDup_cons in N as [N1 N2]. rewrite filter_cons.
    destruct (decide _); [|by apply IH]. csimpl. apply NoDup_cons. split; [|by apply IH]. intros X. apply N1.
    apply elem_of_list_fmap in X as (y & -> & X). apply elem_of_list_filter in X as [_ X]. by apply elem_of_list_fmap_1. }
  assert (Hin : forall k l, l_defer c !! k = Some l -> l ≡ₚ of_key k D).
  { intros k l E. pose proof (ab_defer A k) as X. rewrite E in X. exact X. }
  apply NoDup_Permutation; [|done|].
  - unfold deferred_ids. pose proof (NoDup_fst_map_to_list (l_defer c)) as NM.
    assert (HM : forall k l, (k, l) ∈ map_to_list (l_defer c) -> l ≡ₚ of_key k D) by (intros k l X; apply elem_of_map_to_list in X; by apply Hin).
    revert NM HM. generalize (map_to_list (l_defer c)). intros m. induction m as [|[k l] m IH]; intros NM HM; [constructor|].
    csimpl in NM. apply NoDup_cons in NM as [NM1 NM2]. rewrite bind_cons. cbn [snd]. apply NoDup_app. split_and!.
    + rewrite (HM k l ltac:(left)). apply Nk.
    + intros i Hi Hb. rewrite (HM k l ltac:(left)) in Hi. apply of_key_elem in Hi as (e & He & Hk).
      apply elem_of_list_bind in Hb as ([k2 l2] & Hi2 & Hm). cbn in Hi2. rewrite (HM k2 l2 ltac:(by right)) in Hi2. apply of_key_elem in Hi2 as (e2 & He2 & Hk2).
      assert (e = e2) as <-. { assert (X : (i, e) = (i, e2)); [|by injection X]. eapply (nodup_inj fst); [exact N|done|done|done]. }
      apply NM1. rewrite <- Hk, Hk2. by apply (elem_of_list_fmap_1 fst _ (k2, l2)).
    + apply IH; [done|]. intros k2 l2 X. apply HM. by right.
  - intros i. unfold deferred_ids. rewrite elem_of_list_bind. split.
    + intros ([k l] & Hi & Hm). cbn in Hi. apply elem_of_map_to_list in Hm. rewrite (Hin _ _ Hm) in Hi. apply of_key_elem in Hi as (e & He & _).
      by apply (elem_of_list_fmap_1 fst _ (i, e)).
    + intros H. apply elem_of_list_fmap in H as ([j e] & -> & He). cbn. pose proof (ab_defer A (e_key e)) as X.
      assert (Y : j ∈ of_key (e_key e) D) by (apply of_key_elem; eauto). rewrite <- X in Y.
      destruct (l_defer c !! e_key e) as [l|] eqn:El; cbn in Y; [|by apply elem_of_nil in Y].
      exists (e_key e, l). split; [done|]. by apply elem_of_map_to_list.
Qed.
Lemma def_alive s b : Inv s b -> filter (fun y => y.1 ∉ b_cached b) (b_alive b) ≡ₚ trip <$> q_def s.
Proof.
  intros I. eapply (@filter_perm _ _ _ _ (trip <$> cached_elems s)).
  - rewrite (iv_alive I), <- fmap_app. by rewrite all_cached.
  - intros y Hy X. apply elem_of_list_fmap in Hy as (e & -> & He). apply X. by apply (cached_kv I).
  - intros y Hy. apply elem_of_list_fmap in Hy as (e & -> & He). by apply (def_not_cached I).
Qed.
Lemma deferred_entries_is c s b : Rep c s -> Inv s b -> DeferredEntries c = Z.of_nat (length (filter (fun y => y.1 ∉ b_cached b) (b_alive b))).
Proof.
  intros (L & P & D & A & T) I. unfold DeferredEntries. f_equal. rewrite (def_alive I), (deferred_perm A), (ab_def A). by rewrite !fmap_length.
Qed.
Lemma sum_units_is c (l : list (nat * elem V)) : (forall p, p ∈ l -> l_heap c !! p.1 = Some p.2) -> sum_units l.*1 c = Ok (sum_Z (e_units <$> l.*2)).
Proof.
  induction l as [|[i e] l IH]; intros H; [done|]. csimpl. cbn [sum_units]. unfold load. pose proof (H (i, e) ltac:(left)) as Hi. cbn in Hi. rewrite Hi. cbn [obind].
  rewrite IH by (intros p Hp; apply H; by right). cbn [obind]. by rewrite sum_Z_cons.
Qed.
Lemma sum_units_perm c (l1 l2 : list nat) n : l1 ≡ₚ l2 -> sum_units l1 c = Ok n -> sum_units l2 c = Ok n.
Proof.
  intros E. revert n. induction E as [|x l1 l2 E IH|x y l|l1 l2 l3 E1 IH1 E2 IH2]; intros n H; [done| | |auto].
  - cbn [sum_units] in *. destruct (load x c) as [e| | |] eqn:El; cbn [obind] in *; try done.
    destruct (sum_units l1 c) as [m| | |] eqn:Es; cbn [obind] in *; try done. by rewrite (IH m eq_refl).
  - cbn [sum_units] in *. destruct (load x c) as [e| | |] eqn:El, (load y c) as [e2| | |] eqn:El2; cbn [obind] in *; try done.
    destruct (sum_units l c) as [m| | |] eqn:Es; cbn [obind] in *; try done. injection H as <-. f_equal. lia.
Qed.
Lemma deferred_size_is c s b : Rep c s -> Inv s b -> DeferredSize c = Ok (size_of_all (filter (fun y => y.1 ∉ b_cached b) (b_alive b))).
Proof.
  intros (L & P & D & A & T) I. unfold DeferredSize. rewrite (size_perm (def_alive I)). unfold size_of_all. rewrite <- list_fmap_compose.
  eapply sum_units_perm; [symmetry; apply (deferred_perm A)|]. rewrite (ab_def A). apply sum_units_is.
  intros [i e] H. apply (core_look _ _ A). rewrite !elem_of_app. auto.
Qed.

Lemma any_value_is c ids v (h : nat -> elem V) : (forall i, i ∈ ids -> l_heap c !! i = Some (h i)) ->
  exists r, any_value ids (Some v) c = Ok r /\ (r = true <-> exists i, i ∈ ids /\ e_value (h i) = v).
Proof.
  induction ids as [|i ids IH]; intros H; cbn [any_value].
  - exists false. split; [done|]. split; [done|]. intros (i & Hi & _). by apply elem_of_nil in Hi.
  - unfold load. rewrite (H i ltac:(left)). cbn [obind]. destruct (bool_decide (e_value (h i) = v)) eqn:E.
    + apply bool_decide_eq_true in E. exists true. split; [done|]. split; [|done]. intros _. exists i. split; [left|done].
    + apply bool_decide_eq_false in E. destruct IH as (r & -> & IH); [intros j Hj; apply H; by right|]. exists r. split; [done|]. rewrite IH. split.
      * intros (j & Hj & Ej). exists j. split; [by right|done].
      * intros (j & Hj & Ej). apply elem_of_cons in Hj as [->|Hj]; [done|]. eauto.
Qed.
Lemma in_deferred_is c s k v : Rep c s -> exists r, InDeferredTable k (Some v) c = Ok r /\ (r = true <-> (k, v) ∈ kv <$> q_def s).
Proof.
  intros (L & P & D & A & T). unfold InDeferredTable. pose proof (ab_defer A k) as X.
  assert (HD : (k, v) ∈ kv <$> q_def s <-> exists i e, (i, e) ∈ D /\ e_key e = k /\ e_value e = v).
  { rewrite (ab_def A), elem_of_list_fmap. split.
    - intros (e & E & H). apply elem_of_list_fmap in H as ([i e2] & -> & H). injection E as -> ->. eauto.
    - intros (i & e & H & <- & <-). exists e. split; [done|]. by apply (elem_of_list_fmap_1 snd _ (i, e)). }
  destruct (l_defer c !! k) as [l|] eqn:El; cbn in X.
  - pose (h := fun i => match l_heap c !! i with Some e => e | None => Elem ""%string v 0 0 0 end).
    destruct (@any_value_is c l v h) as (r & Er & Hr).
    { intros i Hi. rewrite X in Hi. apply of_key_elem in Hi as (e & H & _). unfold h.
      assert (Y : l_heap c !! i = Some e) by (apply (core_look _ _ A); rewrite !elem_of_app; auto). by rewrite Y. }
    exists r. split; [done|]. rewrite Hr, HD. split.
    + intros (i & Hi & E). rewrite X in Hi. apply of_key_elem in Hi as (e & H & Hk). exists i, e. split; [done|]. split; [done|].
      assert (Y : l_heap c !! i = Some e) by (apply (core_look _ _ A); rewrite !elem_of_app; auto). unfold h in E. by rewrite Y in E.
    + intros (i & e & H & Hk & Hv). exists i. split; [rewrite X; apply of_key_elem; eauto|].
      assert (Y : l_heap c !! i = Some e) by (apply (core_look _ _ A); rewrite !elem_of_app; auto). unfold h. by rewrite Y.
  - exists false. split; [done|]. split; [done|]. rewrite HD. intros (i & e & H & Hk & Hv). apply Permutation_nil in X.
    assert (Y : i ∈ of_key k D) by (apply of_key_elem; eauto). rewrite X in Y. by apply elem_of_nil in Y.
Qed.
Lemma still_in_use_is c s b k v : Rep c s -> Inv s b -> StillInUse k (Some v) c = Ok (bool_decide ((k, v) ∈ (b_alive b).*1)).
Proof.
  intros R I. destruct (in_deferred_is k v R) as (r & Er & Hr).
  assert (HA : (k, v) ∈ (b_alive b).*1 <-> (k, v) ∈ kv <$> cached_elems s \/ (k, v) ∈ kv <$> q_def s).
  { rewrite (iv_alive I), <- list_fmap_compose. change (fst ∘ trip) with (@kv V). rewrite all_cached, fmap_app, elem_of_app. done. }
  destruct R as (L & P & D & A). unfold StillInUse. destruct (l_table c !! k) as [id|] eqn:Ek.
  - apply (abs_tab _ _ A) in Ek as (e & He & Hk). 
    assert (Y : l_heap c !! id = Some e) by (apply (core_look _ _ (proj1 A)); rewrite !elem_of_app; apply elem_of_app in He; tauto).
    assert (Hc : e ∈ cached_elems s). { unfold cached_elems. rewrite (ab_lst (proj1 A)), (ab_pin (proj1 A)), <- fmap_app. by apply (elem_of_list_fmap_1 snd _ (id, e)). }
    unfold load. rewrite Y. cbn [obind]. destruct (bool_decide (e_value e = v)) eqn:E.
    + apply bool_decide_eq_true in E. f_equal. symmetry. apply bool_decide_eq_true. apply HA. left. rewrite <- Hk, <- E. by apply (elem_of_list_fmap_1 kv _ e).
    + apply bool_decide_eq_false in E. rewrite Er. f_equal. symmetry. destruct r.
      * apply bool_decide_eq_true. apply HA. right. by apply Hr.
      * apply bool_decide_eq_false. intros X. apply HA in X as [X|X]; [|apply Hr in X; done].
        apply elem_of_list_fmap in X as (e2 & E2 & X). injection E2 as E3 ->. apply E. f_equal.
        eapply (nodup_inj e_key); [exact (abs_keys A)|done|done|by rewrite Hk].
  - rewrite Er. f_equal. symmetry. destruct r.
    + apply bool_decide_eq_true. apply HA. right. by apply Hr.
    + apply bool_decide_eq_false. intros X. apply HA in X as [X|X]; [|apply Hr in X; done].
      apply elem_of_list_fmap in X as (e2 & E2 & X). injection E2 as -> ->. destruct (cached_id A X) as (id & Hid & _). congruence.
Qed.

(** ** Lookups *)
Lemma table_is c s k : Rep c s ->
  match l_table c !! k with
  | Some id => exists e, l_heap c !! id = Some e /\ e ∈ cached_elems s /\ e_key e = k
  | None => k ∉ e_key <$> cached_elems s
  end.
Proof.
  intros (L & P & D & A). destruct (l_table c !! k) as [id|] eqn:Ek.
  - apply (abs_tab _ _ A) in Ek as (e & He & Hk). exists e. split_and!; [|  |done].
    + apply (core_look _ _ (proj1 A)); rewrite !elem_of_app; apply elem_of_app in He; tauto.
    + unfold cached_elems. rewrite (ab_lst (proj1 A)), (ab_pin (proj1 A)), <- fmap_app. by apply (elem_of_list_fmap_1 snd _ (id, e)).
  - intros X. apply elem_of_list_fmap in X as (e & -> & X). destruct (cached_id A X) as (id & Hid & _). congruence.
Qed.
Lemma cached_unique s b e k v : Inv s b -> e ∈ cached_elems s -> e_key e = k -> (k, v) ∈ b_cached b -> e_value e = v.
Proof.
  intros I He Hk Hv. rewrite (iv_cached I) in Hv. apply elem_of_list_fmap in Hv as (e2 & E & H2). injection E as -> ->.
  f_equal. destruct (iv_shape I) as [c R]. by eapply (nodup_inj e_key); [exact (rep_keys R)| | |].
Qed.
Lemma peek_is c s b k v : Rep c s -> Inv s b -> peek clk c k = Some v <-> (k, v) ∈ b_cached b.
Proof.
  intros R I. unfold peek, Lookup, LookupWithOptions, RemoveExpiredEntries. cbn [fst l_idle set_idle Z.leb Z.compare obind l_table].
  pose proof (table_is k R) as H. destruct (l_table c !! k) as [id|].
  - destruct H as (e & Hh & He & Hk). unfold load. cbn [set_idle l_heap fst snd]. rewrite Hh. cbn [obind snd]. split.
    + intros [= <-]. rewrite <- Hk. change (e_key e, e_value e) with (kv e). by apply (cached_kv I).
    + intros X. f_equal. by eapply cached_unique.
  - split; [done|]. intros X. exfalso. apply H. rewrite (iv_cached I) in X. apply elem_of_list_fmap in X as (e2 & E & H2). injection E as -> ->. by apply elem_of_list_fmap_1.
Qed.
Lemma last_use_is c s b k v : Rep c s -> Inv s b -> (k, v) ∈ b_cached b -> exists t, last_use (k, v) b = Some t /\ GetLastUseTime k c = Ok t.
Proof.
  intros R I H. unfold GetLastUseTime. pose proof (table_is k R) as X. destruct (l_table c !! k) as [id|].
  - destruct X as (e & Hh & He & Hk). exists (e_last e). unfold load. rewrite Hh. split; [|done].
    pose proof (cached_unique I He Hk H) as <-. rewrite <- Hk. change (e_key e, e_value e) with (kv e). by apply (inv_last_use I).
  - exfalso. apply X. rewrite (iv_cached I) in H. apply elem_of_list_fmap in H as (e2 & E & H2). injection E as -> ->. by apply elem_of_list_fmap_1.
Qed.
Lemma last_use_none c s b k : Rep c s -> Inv s b -> k ∉ (b_cached b).*1 -> GetLastUseTime k c = Ok (-1).
Proof.
  intros R I H. unfold GetLastUseTime. pose proof (table_is k R) as X. destruct (l_table c !! k) as [id|]; [|done].
  destruct X as (e & Hh & He & Hk). exfalso. apply H. rewrite (iv_cached I), <- list_fmap_compose, <- Hk. by apply (elem_of_list_fmap_1 (fst ∘ kv)).
Qed.

(** ** Conservation *)
Lemma retouch_kv s e e' s' : retouch s e e' s' -> kv <$> all_elems s ≡ₚ kv <$> all_elems s'.
Proof. intros T. destruct (retouch_all T) as (R & E1 & E2 & _). rewrite E1, E2. csimpl. by rewrite (rt_kv T). Qed.
Lemma release_kv c s e : Rep c s -> e ∈ cached_elems s -> 0 < e_pin e -> kv <$> all_elems s ≡ₚ kv <$> r_release clk e s ++ all_elems (i_release clk e s).
Proof.
  intros R H Hp. destruct (unpin_retouch clk R H Hp) as [T _]. destruct (release_leave clk R H Hp) as (L & D & _).
  rewrite (retouch_kv T). pose proof (leave_all L) as E. rewrite D in E. by rewrite E.
Qed.
Lemma evict_all s : all_elems s ≡ₚ r_evict s ++ all_elems (i_evict s).
Proof. pose proof (leave_all (leave_evict s)) as E. by rewrite <- r_evict_dead in E. Qed.
Lemma expire_all s : all_elems s ≡ₚ r_expire clk s ++ all_elems (i_expire clk s).
Proof. pose proof (leave_all (leave_expire clk s)) as E. by rewrite <- r_expire_dead in E. Qed.
Lemma insert1_all k v u s : (k, v) :: (kv <$> all_elems s) ≡ₚ kv <$> (r_remove k s ++ r_evict (i_insert1 clk k v u s)) ++ all_elems (i_evict (i_insert1 clk k v u s)).
Proof.
  rewrite <- app_assoc, <- evict_all. unfold i_insert1. destruct (add_perm (new_elem k v u (clk (q_tick s))) (with_tick (S (q_tick s)) (i_remove k s))) as [_ E].
  rewrite E. change (all_elems (with_tick _ (i_remove k s))) with (all_elems (i_remove k s)). rewrite <- Permutation_middle. csimpl. by rewrite <- removed_perm.
Qed.
Definition news o : list (string * V) := match inserted_by o with Some y => [y.1] | None => [] end.
Lemma sim_all s b o r es s' : Inv s b -> legal b o -> sim clk o s r es s' -> news o ++ (kv <$> all_elems s) ≡ₚ (kv <$> es) ++ (kv <$> all_elems s').
Proof.
  intros I Hl Hs. pose proof (lawful_legal o I Hl) as Hw. destruct (iv_shape I) as [c R]. rewrite <- fmap_app.
  destruct o as [k v u|k v u|k|k v|k| | | | |n|k v u|t]; cbn [sim lawful] in *; unfold news; cbn [inserted_by app fst].
  - destruct Hs as (He & -> & -> & ->). destruct Hw as [Hv Hu]. pose proof (inv_insert clock k I Hu Hv) as I1. destruct (iv_shape I1) as [c1 R1].
    rewrite (insert1_all k v u s), <- (app_assoc (r_remove k s ++ r_evict _)), !(fmap_app kv (r_remove k s ++ r_evict _)). f_equiv. eapply release_kv; [exact R1|done|cbn; lia].
  - destruct Hs as (-> & -> & ->). apply insert1_all.
  - destruct Hs as (-> & Hs). pose proof (inv_expired clock I) as I1. destruct (iv_shape I1) as [c1 R1]. rewrite (expire_all s), !fmap_app. f_equiv.
    destruct Hs as [(e & He & <- & -> & ->)|(Hk & -> & ->)]; [|done]. destruct (pin_retouch R1 He) as [T _]. apply (retouch_kv T).
  - destruct Hs as (-> & e & <- & <- & Hp & [(He & -> & ->)|(He & -> & ->)]).
    + destruct (undefer_perm R He) as (R' & ED & E1 & E2). unfold all_elems. rewrite ED. unfold r_undefer.
      destruct (decide (e_pin e = 1)) as [Ep|Ep].
      * rewrite (E1 Ep). rewrite Ep, Z.eqb_refl. unfold i_undefer. rewrite Ep, Z.eqb_refl. cbn [with_lists q_lst q_pin]. rewrite !fmap_app. csimpl. solve_Permutation.
      * rewrite (E2 Ep). apply Z.eqb_neq in Ep. unfold i_undefer. rewrite !Ep. cbn [with_lists q_lst q_pin]. rewrite !fmap_app. csimpl. done.
    + by eapply release_kv.
  - destruct Hs as (-> & -> & ->). by rewrite (removed_perm k s).
  - destruct Hs as (-> & gs & Eg & -> & ->). by rewrite (leave_all (leave_all_gone s Eg)).
  - destruct Hs as (-> & -> & ->). pose proof (leave_all (leave_unpinned s)) as E. rewrite dead_dead in E. by rewrite E.
  - destruct Hs as (-> & Ee & ->). unfold all_elems at 2. cbn. by rewrite app_nil_r, Ee.
  - destruct Hs as (-> & -> & ->). by rewrite <- expire_all.
  - destruct Hs as (-> & -> & ->). rewrite <- evict_all. done.
  - destruct Hs as (-> & -> & ->). rewrite <- evict_all. destruct (resize_all k v u s) as [-> _]. unfold at_kv. rewrite <- list_fmap_compose.
    apply Permutation_refl', list_fmap_ext. intros i x _. cbn. by destruct (decide _).
  - destruct Hs as (-> & -> & ->). rewrite <- expire_all. done.
Qed.
Lemma inserted_app h1 h2 : inserted (h1 ++ h2) = inserted (V := V) h1 ++ inserted h2.
Proof. apply bind_app. Qed.
Lemma destroyed_app h1 h2 : destroyed (h1 ++ h2) = destroyed (V := V) h1 ++ destroyed h2.
Proof. apply bind_app. Qed.
Lemma alive_kv s b : Inv s b -> (b_alive b).*1 ≡ₚ kv <$> all_elems s.
Proof. intros I. rewrite (iv_alive I), <- list_fmap_compose. done. Qed.

Lemma conserve cf c h : reach clk ord cf c h -> inserted h ≡ₚ destroyed h ++ (b_alive (books_of clk cf h)).*1.
Proof.
  intros H. induction H as [c0 x Ht H|c h o c' r x H IH Hl Hs]; [done|].
  destruct (reach_more clock o H Hl) as (s & c2 & r2 & es & s' & (R & I & _) & H2 & S2 & (R2 & I2 & _)).
  rewrite Hs in H2. injection H2 as <- <- ->. rewrite (alive_kv I2), inserted_app, destroyed_app, IH, (alive_kv I).
  unfold inserted, destroyed at 2. cbn [mbind list_bind ev_op ev_destroyed]. rewrite !app_nil_r.
  pose proof (sim_all o r es s' I Hl S2) as E. fold (news o). rewrite <- app_assoc. rewrite (Permutation_app_comm (kv <$> all_elems s)).
  rewrite E. unfold destroyed. cbn [mbind list_bind ev_destroyed]. by rewrite app_nil_r, <- app_assoc.
Qed.

Lemma not_held cf c h o c' r x : reach clk ord cf c h -> legal (books_of clk cf h) o -> step clk ord o c = Ok (c', r, x) ->
  forall y, y ∈ x -> y ∉ b_held (books_of clk cf (h ++ [Event o r x (l_tick c) (l_tick c')])).
Proof.
  intros H Hl Hs y Hy Hh. destruct (reach_more clock o H Hl) as (s & c2 & r2 & es & s' & (R & I & _) & H2 & S2 & (R2 & I2 & _)).
  rewrite Hs in H2. injection H2 as <- <- ->. pose proof (sim_all o r es s' I Hl S2) as E.
  apply (iv_held I2) in Hh. assert (N : NoDup (news o ++ (kv <$> all_elems s))).
  { pose proof (rep_vals R) as N. pose proof (lawful_legal o I Hl) as Hw.
    assert (NS : NoDup (kv <$> all_elems s)). { apply (NoDup_fmap_1 snd). by rewrite <- list_fmap_compose. }
    unfold news. destruct o; cbn [inserted_by app]; try done; cbn [lawful] in Hw; destruct Hw as [Hv _]; cbn [fst]; apply NoDup_cons; (split; [|done]);
      intros X; apply Hv; apply elem_of_list_fmap in X as (e & Ex & X); injection Ex as _ ->; by apply elem_of_list_fmap_1. }
  rewrite E in N. apply NoDup_app in N as (_ & N & _). by apply (N y).
Qed.
Lemma alive_why cf c h y : reach clk ord cf c h -> y ∈ (b_alive (books_of clk cf h)).*1 -> y ∈ b_cached (books_of clk cf h) \/ y ∈ b_held (books_of clk cf h).
Proof.
  intros H Hy. destruct (reach_good clock H) as (s & R & I & _). rewrite (alive_kv I) in Hy. apply elem_of_list_fmap in Hy as (e & -> & He).
  rewrite all_cached in He. apply elem_of_app in He as [He|He]; [left; by apply (cached_kv I)|right].
  apply (held_pin I); [by apply def_all|]. pose proof (rep_def_pos R) as F. rewrite Forall_forall in F. by apply F.
Qed.
Lemma held_alive cf c h y : reach clk ord cf c h -> y ∈ b_held (books_of clk cf h) \/ y ∈ b_cached (books_of clk cf h) -> y ∈ (b_alive (books_of clk cf h)).*1.
Proof.
  intros H Hy. destruct (reach_good clock H) as (s & R & I & _). rewrite (alive_kv I). destruct Hy as [Hy|Hy]; [by apply (iv_held I)|].
  rewrite (iv_cached I) in Hy. apply elem_of_list_fmap in Hy as (e & -> & He). apply elem_of_list_fmap_1. by apply cached_all.
Qed.
Lemma cleared cf c h c' r x : reach clk ord cf c h -> legal (books_of clk cf h) OClear -> step clk ord OClear c = Ok (c', r, x) ->
  x ≡ₚ (b_alive (books_of clk cf h)).*1 /\ DestroyCache c' = Ok tt.
Proof.
  intros H Hl Hs. destruct (reach_more clock OClear H Hl) as (s & c2 & r2 & es & s' & (R & I & _) & H2 & S2 & (R2 & I2 & _)).
  rewrite Hs in H2. injection H2 as <- <- ->. destruct S2 as (-> & E & ->). split; [by rewrite (alive_kv I), E|].
  destruct R2 as (L & P & D & A & T). pose proof (ab_lst A) as X1. pose proof (ab_pin A) as X2. pose proof (ab_def A) as X3.
  cbn in X1, X2, X3. symmetry in X1, X2, X3. apply fmap_nil_inv in X1, X2, X3. subst L P D. unfold tab in T. cbn in T. apply Permutation_nil_r in T.
  apply map_to_list_empty_iff in T. assert (Td : l_defer c' = ∅).
  { apply map_empty. intros k. pose proof (ab_defer A k) as Y. pose proof (ab_nonnil A k) as Z0. cbn in Y. destruct (l_defer c' !! k); [|done]. cbn in Y.
    apply Permutation_nil_r in Y. congruence. }
  unfold DestroyCache. rewrite T, Td. done.
Qed.

(** ** The bound *)
Lemma bounded cf c h : reach clk ord cf c h -> Size c <= b_max (books_of clk cf h) \/ forall y, y ∈ b_cached (books_of clk cf h) -> y ∈ b_held (books_of clk cf h).
Proof.
  intros H. destruct (reach_good clock H) as (s & R & I & B & _). destruct B as [B|B].
  - left. rewrite (iv_max I) in B. destruct R as (L & P & D & A & T). unfold Size. by rewrite (ab_units A).
  - right. intros y Hy. rewrite (iv_cached I) in Hy. apply elem_of_list_fmap in Hy as (e & -> & He). apply (held_pin I); [by apply cached_all|].
    rewrite Forall_forall in B. by apply B.
Qed.
End claims.
