(** Which value a lookup returns, what eviction and expiry take, and in what order (proof-internal vocabulary). *)
From stdpp Require Import gmap.
From Verif Require Import Base Proto Lru LruSim LruOps LruOps2 LruSpec LruInv LruBooks LruStep LruProofs LruClaims.
Local Open Scope Z_scope.
Set Implicit Arguments.
Local Arguments sum_Z : simpl never.
Local Arguments dead : simpl never.
Arguments iv_pins {V EqDecision0 clk s b} _ _ _. Arguments iv_held {V EqDecision0 clk s b} _ _ _.
Arguments iv_stamps {V EqDecision0 clk s b} _ _ _. Arguments iv_times {V EqDecision0 clk s b} _ _ _.

Section order.
Context {V : Type} `{!EqDecision V}.
Implicit Types (c : lru V) (s : ideal V) (e : elem V) (b : books V) (o : op V).
Variable clk : nat -> Z.
Variable ord : hash_order.
Hypothesis clock : proper_clock clk.
Notation Inv := (Inv clk).

(** ** Lookups *)
Lemma books_snoc cf h ev : books_of clk cf (h ++ [ev]) = observe clk (cf_lru cf) (books_of clk cf h) (ev : event V).
Proof. unfold books_of. by rewrite foldl_app. Qed.
Lemma lookup_ret cf c h k c' r x : reach clk ord cf c h -> step clk ord (OLookup k) c = Ok (c', r, x) ->
  forall v, r = Some v <-> (k, v) ∈ b_cached (books_of clk cf (h ++ [Event (OLookup k) r x (l_tick c) (l_tick c')])).
Proof.
  intros H Hs v. destruct (reach_more clock (OLookup k) H I) as (s & c2 & r2 & es & s' & (R & Iv & _) & H2 & S2 & (R2 & I2 & _)).
  rewrite Hs in H2. injection H2 as <- <- ->. destruct S2 as (-> & S2). 
  pose proof (inv_expired clock Iv) as I1. destruct (iv_shape I1) as [c1 R1].
  destruct S2 as [(e & He & <- & -> & ->)|(Hk & -> & ->)].
  - destruct (pin_retouch R1 He) as [T _]. destruct (rt_perm T) as (R' & E1 & E2). split.
    + intros [= <-]. rewrite (iv_cached I2), E2. csimpl. left.
    + intros X. f_equal. apply (cached_unique (e := pinned e) (k := e_key e) I2); [|done|done]. rewrite E2. left.
  - split; [done|]. intros X. exfalso. apply Hk. rewrite (iv_cached I2) in X. apply elem_of_list_fmap in X as (e2 & E & H2). injection E as -> ->. by apply elem_of_list_fmap_1.
Qed.

Lemma latest_snoc k h ev : latest k (h ++ [ev]) =
  match inserted_by (ev_op (ev : event V)) with Some (k', v, u) => if decide (k' = k) then Some v else latest k h | None => latest k h end.
Proof.
  unfold latest. rewrite inserted_app, filter_app. unfold inserted at 2. cbn [mbind list_bind].
  destruct (inserted_by (ev_op ev)) as [[[k' v] u]|]; cbn [app fst]; [|by rewrite app_nil_r].
  destruct (decide (k' = k)) as [E|E].
  - rewrite filter_cons_True, filter_nil by done. by rewrite last_snoc.
  - rewrite filter_cons_False, filter_nil by done. by rewrite app_nil_r.
Qed.
Lemma cached_latest cf (h : list (event V)) k v : (k, v) ∈ b_cached (books_of clk cf h) -> latest k h = Some v.
Proof.
  revert k v. induction h as [|ev h IH] using rev_ind; intros k v H; [by apply elem_of_nil in H|].
  rewrite books_snoc in H. rewrite latest_snoc. unfold observe in H. cbn [b_cached] in H. apply elem_of_list_filter in H as [_ H].
  set (fresh := if expires (ev_op ev) && negb (cf_lru cf) then _ else _) in H.
  assert (F : (k, v) ∈ fresh -> latest k h = Some v).
  { intros X. apply IH. unfold fresh in X. destruct (expires (ev_op ev) && negb (cf_lru cf)); [|done]. by apply elem_of_list_filter in X as [_ X]. }
  assert (G : (k, v) ∈ filter (fun x => x.1 <> k) fresh -> False) by (intros X; by apply elem_of_list_filter in X as [X _]).
  destruct (ev_op ev) as [k1 v1 u1|k1 v1 u1|k1|k1 v1|k1| | | | |n|k1 v1 u1|t]; cbn [inserted_by]; try (by apply F).
  - apply elem_of_cons in H as [H|H]; [injection H as -> ->; by rewrite decide_True|]. apply elem_of_list_filter in H as [H1 H2]. rewrite decide_False by done. by apply F.
  - apply elem_of_cons in H as [H|H]; [injection H as -> ->; by rewrite decide_True|]. apply elem_of_list_filter in H as [H1 H2]. rewrite decide_False by done. by apply F.
  - apply elem_of_list_filter in H as [_ H]. by apply F.
  - by apply elem_of_nil in H.
  - by apply elem_of_nil in H.
Qed.
Lemma stays lru_mode b ev x : x ∈ b_cached b -> ~ takes_out clk lru_mode b ev x -> x ∈ b_cached (observe clk lru_mode b ev).
Proof.
  intros H N. unfold takes_out in N. unfold observe. cbn [b_cached]. apply elem_of_list_filter. split; [tauto|].
  destruct (ev_op ev) as [k1 v1 u1|k1 v1 u1|k1|k1 v1|k1| | | | |n|k1 v1 u1|t] eqn:E; cbn [expires andb]; try done; try tauto.
  - apply elem_of_cons. right. apply elem_of_list_filter. tauto.
  - apply elem_of_cons. right. apply elem_of_list_filter. tauto.
  - destruct lru_mode; cbn [negb]; [done|]. apply elem_of_list_filter. split; [|done]. cbn [limit_after] in *. destruct (overdue _ _ _ _); [|done]. tauto.
  - apply elem_of_list_filter. tauto.
  - destruct lru_mode; cbn [negb]; [done|]. apply elem_of_list_filter. split; [|done]. cbn [limit_after] in *. destruct (overdue _ _ _ _); [|done]. tauto.
  - destruct lru_mode; cbn [negb]; [done|]. apply elem_of_list_filter. split; [|done]. destruct (overdue _ _ _ _); [|done]. tauto.
Qed.
Lemma comes_in lru_mode b ev k v u : inserted_by (ev_op ev) = Some (k, v, u) -> (k, v) ∉ ev_destroyed ev -> (k, v) ∈ b_cached (observe clk lru_mode b ev).
Proof.
  intros H N. unfold observe. cbn [b_cached]. apply elem_of_list_filter. split; [done|].
  destruct (ev_op ev); cbn [inserted_by] in H; try done; injection H as -> -> ->; left.
Qed.
Lemma kept cf h1 (ev : event V) h2 k v u : inserted_by (ev_op ev) = Some (k, v, u) -> (k, v) ∉ ev_destroyed ev ->
  (forall a ev2 z, h2 = a ++ ev2 :: z -> ~ takes_out clk (cf_lru cf) (books_of clk cf (h1 ++ ev :: a)) ev2 (k, v)) ->
  (k, v) ∈ b_cached (books_of clk cf (h1 ++ ev :: h2)).
Proof.
  intros H N. induction h2 as [|ev2 h2 IH] using rev_ind; intros K.
  - rewrite books_snoc. by eapply comes_in.
  - replace (h1 ++ ev :: h2 ++ [ev2]) with ((h1 ++ ev :: h2) ++ [ev2]) by (rewrite <- app_assoc; done). rewrite books_snoc. apply stays.
    + apply IH. intros a ev3 z E. apply (K a ev3 (z ++ [ev2])). rewrite E. by rewrite <- app_assoc.
    + by apply (K h2 ev2 []).
Qed.

(** ** Expiry *)
Definition idle_by o s : ideal V := match o with OSetTimeout t => with_idle (timeout_of t) s | _ => s end.
Lemma sim_expires o s r es s' : expires o = true -> sim clk o s r es s' -> es = r_expire clk (idle_by o s).
Proof. destruct o; cbn [expires sim idle_by]; try done; [by intros _ [-> _]|by intros _ (_ & -> & _)|by intros _ (_ & -> & _)]. Qed.
Lemma idle_inv o s b : Inv s b -> exists b', Inv (idle_by o s) b' /\ b_cached b' = b_cached b /\ b_held b' = b_held b /\ b_recent b' = b_recent b /\ q_idle (idle_by o s) = limit_after o b.
Proof.
  intros I. destruct o as [k v u|k v u|k|k v|k| | | | |n|k v u|t]; cbn [idle_by limit_after]; try (exists b; by rewrite (iv_idle I)).
  eexists. split; [exact (inv_idle (timeout_of t) I)|]. by destruct t.
Qed.
Lemma expiry cf c h o c' r x : reach clk ord cf c h -> legal (books_of clk cf h) o -> expires o = true -> step clk ord o c = Ok (c', r, x) ->
  forall y, y ∈ x <-> y ∈ b_cached (books_of clk cf h) /\ y ∉ b_held (books_of clk cf h) /\
                      overdue (clk (l_tick c)) (limit_after o (books_of clk cf h)) (books_of clk cf h) y = true.
Proof.
  intros H Hl He Hs y. destruct (reach_more clock o H Hl) as (s & c2 & r2 & es & s' & (R & I & _) & H2 & S2 & (R2 & I2 & _)).
  rewrite Hs in H2. injection H2 as <- <- ->. apply (sim_expires _ _ _ _ _ He) in S2 as ->. rewrite (rep_tick R).
  destruct (idle_inv o I) as (b' & Ib & E1 & E2 & E3 & E4). rewrite <- E1, <- E2. rewrite r_expire_dead. unfold dead.
  unfold overdue, last_use. rewrite <- E3, <- E4. fold (last_use y b').
  assert (Et : q_tick (idle_by o s) = q_tick s) by (by destruct o). rewrite andb_true_iff, Z.leb_le.
  destruct (iv_shape Ib) as [c1 R1]. split.
  - intros X. apply elem_of_list_fmap in X as (e & -> & X). apply elem_of_list_filter in X as [Hp X]. apply (expired_elem e Ib) in X as (X1 & X2 & X3).
    assert (Hc : e ∈ cached_elems (idle_by o s)) by (apply elem_of_app; by left). split_and!; [by apply (cached_kv Ib)| |done|].
    + intros Y. apply (held_pin Ib) in Y; [lia|]. by apply cached_all.
    + rewrite (inv_last_use Ib Hc). apply Z.ltb_lt. unfold threshold in X3. by rewrite Et in X3.
  - intros (Y1 & Y2 & Y3 & Y4). rewrite (iv_cached Ib) in Y1. apply elem_of_list_fmap in Y1 as (e & -> & Hc). apply elem_of_list_fmap_1.
    assert (Hp : e_pin e = 0). { pose proof (rep_pos R1) as F. rewrite Forall_forall in F. pose proof (cached_all _ Hc) as Ha. specialize (F e Ha). cbn in F.
      pose proof (held_pin Ib Ha) as Q. destruct (decide (0 < e_pin e)) as [Z0|Z0]; [by apply Q in Z0|lia]. }
    apply elem_of_list_filter. split; [done|]. apply (expired_elem e Ib). split_and!; [done| |].
    + apply elem_of_app in Hc as [Hc|Hc]; [done|]. pose proof (rep_pin_pos R1) as F. rewrite Forall_forall in F. specialize (F e Hc). cbn in F. lia.
    + rewrite (inv_last_use Ib Hc) in Y4. apply Z.ltb_lt in Y4. unfold threshold. by rewrite Et.
Qed.

Lemma expiry_rest cf c h o c' r x : reach clk ord cf c h -> legal (books_of clk cf h) o -> expires o = true -> step clk ord o c = Ok (c', r, x) ->
  forall k v, peek clk c' k = Some v <-> peek clk c k = Some v /\
    ~ (overdue (clk (l_tick c)) (limit_after o (books_of clk cf h)) (books_of clk cf h) (k, v) = true /\ (cf_lru cf = false \/ (k, v) ∉ b_held (books_of clk cf h))).
Proof.
  intros H Hl He Hs k v. pose proof (expiry o H Hl He Hs (k, v)) as X.
  destruct (reach_more clock o H Hl) as (s & c2 & r2 & es & s' & (R & I & _) & H2 & S2 & (R2 & I2 & _)).
  rewrite Hs in H2. injection H2 as <- <- ->. rewrite (peek_is _ _ R2 I2), (peek_is _ _ R I). rewrite books_snoc. unfold observe. cbn [b_cached ev_op ev_destroyed ev_from].
  set (b := books_of clk cf h) in *. rewrite elem_of_list_filter. rewrite X.
  assert (E : (k, v) ∈ (if expires o && negb (cf_lru cf) then filter (fun x => overdue (clk (l_tick c)) (limit_after o b) b x = false) (b_cached b) else b_cached b) <->
              (k, v) ∈ b_cached b /\ ~ (cf_lru cf = false /\ overdue (clk (l_tick c)) (limit_after o b) b (k, v) = true)).
  { rewrite He. cbn [andb]. destruct (cf_lru cf); cbn [negb]; [split; [|tauto]; intros Y; split; [done|]; by intros [Z0 _]|].
    rewrite elem_of_list_filter. destruct (overdue _ _ _ _); naive_solver. }
  assert (D : (k, v) ∈ b_held b \/ (k, v) ∉ b_held b) by (destruct (decide ((k, v) ∈ b_held b)); auto).
  assert (D2 : cf_lru cf = false \/ cf_lru cf <> false) by (destruct (cf_lru cf); auto).
  destruct o; try done; rewrite E; tauto.
Qed.

(** ** Eviction *)
Definition before (l : list (string * V * Z)) (y x : string * V) : Prop := exists l1 t l2 u l3, l = l1 ++ (y, t) :: l2 ++ (x, u) :: l3.
Lemma evict_in mx tot (r : list (elem V)) x : (x ∈ (evict mx tot r).1 -> x ∈ r) /\ (x ∈ (evict mx tot r).2 -> x ∈ r).
Proof. pose proof (evict_perm mx tot r) as E. split; intros H; rewrite E; apply elem_of_app; auto. Qed.
Lemma evict_order mx tot (r : list (elem V)) x y : x ∈ (evict mx tot r).2 -> y ∈ (evict mx tot r).1 -> e_pin y = 0 ->
  exists l1 l2 l3, r = l1 ++ x :: l2 ++ y :: l3.
Proof.
  intros Hx Hy Hp. revert tot Hx Hy. induction r as [|z r IH]; intros tot; cbn [evict]; [intros Hx; by apply elem_of_nil in Hx|].
  destruct (mx <? tot); [|intros Hx; by apply elem_of_nil in Hx]. destruct (e_pin z =? 0) eqn:Ez; cbn [fst snd].
  - intros Hx Hy. apply elem_of_cons in Hx as [->|Hx].
    + apply evict_in in Hy. apply elem_of_list_split in Hy as (l2 & l3 & ->). exists [], l2, l3. done.
    + destruct (IH _ Hx Hy) as (l1 & l2 & l3 & ->). exists (z :: l1), l2, l3. done.
  - apply Z.eqb_neq in Ez. intros Hx Hy. apply elem_of_cons in Hy as [->|Hy]; [lia|].
    destruct (IH _ Hx Hy) as (l1 & l2 & l3 & ->). exists (z :: l1), l2, l3. done.
Qed.
Lemma evict_need mx tot (r : list (elem V)) pre x post : (evict mx tot r).2 = pre ++ x :: post -> mx < tot - sum_Z (e_units <$> pre).
Proof.
  revert tot pre. induction r as [|z r IH]; intros tot pre; cbn [evict]; [intros H; by destruct pre|].
  destruct (mx <? tot) eqn:E; [|intros H; by destruct pre]. apply Z.ltb_lt in E. destruct (e_pin z =? 0); cbn [snd].
  - destruct pre as [|p pre]; [cbn; change (sum_Z []) with 0; lia|]. cbn [app]. intros [= <- H]. apply IH in H. csimpl. rewrite sum_Z_cons. lia.
  - apply IH.
Qed.
Lemma sub_before (l r : list (string * V * Z)) y x : l `sublist_of` r -> before l y x -> before r y x.
Proof.
  intros S (l1 & t & l2 & u & l3 & ->). apply sublist_app_l in S as (k1 & k2 & -> & _ & S). apply sublist_cons_l in S as (k3 & k4 & -> & S).
  apply sublist_app_l in S as (k5 & k6 & -> & _ & S). apply sublist_cons_l in S as (k7 & k8 & -> & S).
  exists (k1 ++ k3), t, (k5 ++ k7), u, k8. by rewrite <- !app_assoc.
Qed.
Lemma rev_before (l : list (elem V)) l1 x l2 y l3 : rev l = l1 ++ x :: l2 ++ y :: l3 -> before (stamp <$> l) (kv y) (kv x).
Proof.
  intros E. apply (f_equal (@rev _)) in E. rewrite rev_involutive in E. rewrite E, !rev_app_distr. cbn [rev]. rewrite !rev_app_distr. cbn [rev app].
  rewrite <- !app_assoc. cbn [app]. rewrite !fmap_app. csimpl. rewrite !fmap_app. csimpl. 
  exists (stamp <$> rev l3), (e_last y), (stamp <$> rev l2), (e_last x), (stamp <$> rev l1). done.
Qed.
Lemma evicted_before s b x y : Inv s b -> x ∈ r_evict s -> y ∈ cached_elems (i_evict s) -> e_pin y = 0 -> before (b_recent b) (kv y) (kv x).
Proof.
  intros I Hx Hy Hp. assert (Hl : y ∈ (evict (q_max s) (total s) (rev (q_lst s))).1).
  { unfold cached_elems in Hy. cbn [i_evict with_lists q_lst q_pin] in Hy. apply elem_of_app in Hy as [Hy|Hy].
    - by rewrite elem_of_list_In, <- in_rev, <- elem_of_list_In in Hy.
    - destruct (iv_shape I) as [c R]. pose proof (rep_pin_pos R) as F. rewrite Forall_forall in F. specialize (F y Hy). cbn in F. lia. }
  destruct (evict_order _ _ _ Hx Hl Hp) as (l1 & l2 & l3 & E). eapply sub_before; [apply (iv_order I)|]. by eapply rev_before.
Qed.
Lemma unheld_pin s b e : Inv s b -> e ∈ cached_elems s -> kv e ∉ b_held b -> e_pin e = 0.
Proof.
  intros I Hc Hh. destruct (iv_shape I) as [c R]. pose proof (rep_pos R) as F. rewrite Forall_forall in F. pose proof (cached_all _ Hc) as Ha. specialize (F e Ha). cbn in F.
  pose proof (held_pin I Ha) as Q. destruct (decide (0 < e_pin e)) as [Z0|Z0]; [by apply Q in Z0|lia].
Qed.
Lemma before_cons z t l y x : before ((z, t) :: l) y x -> y <> z -> before l y x.
Proof.
  intros (l1 & t1 & l2 & u & l3 & E) N. destruct l1 as [|w l1]; cbn in E; [by injection E as -> _|]. injection E as _ E. exists l1, t1, l2, u, l3. done.
Qed.
Lemma cons_before z t l y x : before l y x -> before ((z, t) :: l) y x.
Proof. intros (l1 & t1 & l2 & u & l3 & ->). exists ((z, t) :: l1), t1, l2, u, l3. done. Qed.
Lemma before_in l y x : before l y x -> x ∈ l.*1.
Proof. intros (l1 & t1 & l2 & u & l3 & ->). rewrite !fmap_app. csimpl. rewrite !fmap_app. csimpl. rewrite !elem_of_app, !elem_of_cons, !elem_of_app, elem_of_cons. auto 10. Qed.
Lemma head_before z t l x : x ∈ l.*1 -> before ((z, t) :: l) z x.
Proof. intros H. apply elem_of_list_fmap in H as ([w u] & -> & H). apply elem_of_list_split in H as (l2 & l3 & ->). exists [], t, l2, u, l3. done. Qed.

Lemma inv_insert1 s b k v u : Inv s b -> 0 <= u -> v ∉ e_value <$> all_elems s ->
  Inv (i_insert1 clk k v u s) (b_new k v u (clk (q_tick s)) (b_leave (kv <$> r_remove k s) (kv <$> filter (fun x => e_key x = k) (cached_elems s)) b)).
Proof.
  intros I Hu Hv. apply (inv_new clock (s := i_remove k s)); [by apply inv_removed|done| |].
  - intros H. apply elem_of_list_fmap in H as (e & -> & H). by apply in_removed in H as [_ H].
  - intros H. apply Hv. rewrite (removed_perm k s), fmap_app. apply elem_of_app. by right.
Qed.
Lemma removed_key k v s y : v ∉ e_value <$> all_elems s -> y ∈ kv <$> r_remove k s -> y.1 = k /\ y.2 <> v.
Proof.
  intros Hv H. apply elem_of_list_fmap in H as (e & -> & H). unfold r_remove, dead in H. apply elem_of_list_filter in H as [_ H]. apply elem_of_list_filter in H as [Hk H].
  split; [done|]. intros E. apply Hv. cbn in E. rewrite <- E. apply elem_of_list_fmap_1. by apply cached_all.
Qed.
Lemma release_others c s e x : Rep c s -> e ∈ cached_elems s -> 0 < e_pin e -> x ∈ cached_elems (i_release clk e s) ->
  (x = released clk e s /\ goes e s = false) \/ (x ∈ cached_elems s /\ kv x <> kv e).
Proof.
  intros R H Hp Hx. destruct (unpin_retouch clk R H Hp) as [T _]. destruct (release_leave clk R H Hp) as (L & _ & G1 & G2).
  destruct (rt_perm T) as (R' & E1 & E2). pose proof (rep_keys R) as N. rewrite E1 in N. csimpl in N. apply NoDup_cons in N as [N _].
  assert (Hr : forall x, x ∈ R' -> x ∈ cached_elems s /\ kv x <> kv e).
  { intros z Hz. split; [rewrite E1; by right|]. intros E. apply N. injection E as <- _. by apply elem_of_list_fmap_1. }
  destruct (goes e s) eqn:Eg.
  - right. pose proof (lv_cached L) as EC. rewrite (G1 eq_refl), E2 in EC. cbn in EC. apply Permutation_cons_inv in EC. apply Hr. by rewrite EC.
  - unfold i_release in Hx. rewrite Eg in Hx. rewrite E2 in Hx. apply elem_of_cons in Hx as [->|Hx]; [by left|]. right. by apply Hr.
Qed.

Lemma evict_first cf c h o c' r x : reach clk ord cf c h -> legal (books_of clk cf h) o -> makes_room o = true -> step clk ord o c = Ok (c', r, x) ->
  let b' := books_of clk cf (h ++ [Event o r x (l_tick c) (l_tick c')]) in
  forall d y, d ∈ x -> ~ other_reason o (books_of clk cf h) d -> y ∈ b_cached b' -> y ∉ b_held b' -> more_recent y d b'.
Proof.
  intros H Hl Hm Hs b' d y Hd Hn Hc Hh. destruct (reach_more clock o H Hl) as (s & c2 & r2 & es & s' & (R & I & B & El & _) & H2 & S2 & (R2 & I2 & B2 & _)).
  rewrite Hs in H2. injection H2 as <- <- ->. fold b' in I2. rewrite (iv_cached I2) in Hc. apply elem_of_list_fmap in Hc as (ey & -> & Hc).
  pose proof (unheld_pin I2 Hc Hh) as Hp. change (before (b_recent b') (kv ey) d).
  assert (Eb : b_recent b' = b_recent (observe clk (cf_lru cf) (books_of clk cf h) (Event o r (kv <$> es) (l_tick c) (l_tick c')))) by (unfold b'; by rewrite books_snoc).
  unfold observe in Eb. cbn [b_recent ev_op ev_to] in Eb. pose proof (lawful_legal o I Hl) as Hw.
  destruct o as [k v u|k v u|k|k v|k| | | | |n|k v u|t]; cbn [sim lawful makes_room other_reason used_by] in *; try done.
  - destruct S2 as (He & -> & -> & ->). destruct Hw as [Hv Hu]. set (s1 := i_evict (i_insert1 clk k v u s)) in *. set (e := new_elem k v u (clk (q_tick s))) in *.
    assert (Hpe : 0 < e_pin e) by (cbn; lia). pose proof (inv_insert clock k I Hu Hv) as I1. destruct (iv_shape I1) as [c1 R1].
    pose proof (inv_insert1 k I Hu Hv) as I0. destruct (iv_shape I0) as [c0 R0].
    rewrite !fmap_app, !elem_of_app in Hd. destruct Hd as [[Hd|Hd]|Hd].
    + exfalso. apply Hn. by eapply removed_key.
    + apply elem_of_list_fmap in Hd as (ed & -> & Hd).
      assert (Hdr : kv ed ∈ (b_recent b').*1).
      { rewrite Eb. csimpl. destruct (decide (kv ed = (k, v))) as [E|E]; [rewrite E; left|right].
        assert (X : ed ∈ q_lst (i_insert1 clk k v u s)). { apply evict_in in Hd. by rewrite elem_of_list_In, <- in_rev, <- elem_of_list_In in Hd. }
        pose proof (iv_stamps I0 ed ltac:(apply elem_of_app; by left)) as Y. cbn [b_new b_leave b_recent] in Y. apply elem_of_cons in Y as [Y|Y]; [exfalso; apply E; by apply (f_equal fst) in Y|].
        by apply (elem_of_list_fmap_1 fst _ (stamp ed)). }
      destruct (release_others R1 He Hpe Hc) as [[Ey Eg]|[Hc1 Hk1]].
      * assert (Ek : kv ey = (k, v)) . { rewrite Ey. unfold released. fold s1. by destruct (q_lru s1). } rewrite Ek. rewrite Eb. apply head_before.
        rewrite Eb in Hdr. csimpl in Hdr. apply elem_of_cons in Hdr as [Hdr|Hdr]; [|done]. exfalso.
        assert (X : ed ∈ all_elems (i_insert1 clk k v u s)) by (rewrite evict_all; apply elem_of_app; by left).
        assert (Y : e ∈ all_elems (i_insert1 clk k v u s)) by (rewrite evict_all; apply elem_of_app; right; by apply cached_all).
        assert (ed = e) as E. { eapply value_inj; [exact R0|done|done|]. by injection Hdr. }
        pose proof (evict_pin (q_max (i_insert1 clk k v u s)) (total (i_insert1 clk k v u s)) (rev (q_lst (i_insert1 clk k v u s)))) as F.
        rewrite Forall_forall in F. specialize (F ed Hd). rewrite E in F. cbn in F. lia.
      * pose proof (evicted_before I0 Hd Hc1 Hp) as X. cbn [b_new b_leave b_recent] in X. unfold use in X. apply before_cons in X; [|done].
        rewrite Eb. by apply cons_before.
    + assert (G : goes e s1 = true). { unfold r_release in Hd. destruct (goes e s1); [done|]. by apply elem_of_nil in Hd. }
      assert (B1 : Bound s1) by by eapply bound_evict. pose proof (goes_pinned _ G B1) as F.
      destruct (release_others R1 He Hpe Hc) as [[-> Eg]|[Hc1 Hk1]]; [change (goes e s1 = false) in Eg; congruence|].
      rewrite Forall_forall in F. specialize (F ey Hc1). cbn in F. lia.
  - destruct S2 as (-> & -> & ->). destruct Hw as [Hv Hu]. pose proof (inv_insert1 k I Hu Hv) as I0.
    rewrite fmap_app, elem_of_app in Hd. destruct Hd as [Hd|Hd]; [exfalso; apply Hn; by eapply removed_key|].
    apply elem_of_list_fmap in Hd as (ed & -> & Hd). pose proof (evicted_before I0 Hd Hc Hp) as X. cbn [b_new b_leave b_recent] in X.
    rewrite Eb. rewrite (rep_tick R2). destruct (insert1_tick clk k v u s) as [Et _].
    change (q_tick (i_evict (i_insert1 clk k v u s))) with (q_tick (i_insert1 clk k v u s)). rewrite Et. exact X.
  - destruct S2 as (-> & e & <- & <- & Hpe & [(He & -> & ->)|(He & -> & ->)]).
    + exfalso. apply Hn. unfold r_undefer in Hd. destruct (e_pin e =? 1); [|by apply elem_of_nil in Hd]. csimpl in Hd. apply elem_of_list_singleton in Hd as ->.
      by apply (def_not_cached I).
    + assert (G : goes e s = true). { unfold r_release in Hd. destruct (goes e s); [done|]. by apply elem_of_nil in Hd. }
      pose proof (goes_pinned _ G B) as F. destruct (release_others R He Hpe Hc) as [[-> Eg]|[Hc1 Hk1]]; [congruence|].
      rewrite Forall_forall in F. specialize (F ey Hc1). cbn in F. lia.
  - destruct S2 as (-> & -> & ->). apply elem_of_list_fmap in Hd as (ed & -> & Hd). rewrite Eb. exact (evicted_before (inv_max n I) Hd Hc Hp).
  - destruct S2 as (-> & -> & ->). apply elem_of_list_fmap in Hd as (ed & -> & Hd). rewrite Eb. exact (evicted_before (inv_resize k v I Hw) Hd Hc Hp).
Qed.

(** ** No more than needed *)
Lemma left_size s (l : list (string * V * Z)) (A R : list (elem V)) : l ≡ₚ trip <$> all_elems s -> (exists c, Rep c s) -> all_elems s ≡ₚ A ++ R ->
  size_of_all (filter (fun y => y.1 ∉ kv <$> A) l) = total s - sum_Z (e_units <$> A).
Proof.
  intros El [c Rp] EA. pose proof (rep_vals Rp) as N. rewrite EA, fmap_app in N. apply NoDup_app in N as (_ & N & _).
  rewrite (total_perm s EA), fmap_app, sum_Z_app. replace (sum_Z (e_units <$> A) + sum_Z (e_units <$> R) - sum_Z (e_units <$> A)) with (sum_Z (e_units <$> R)) by lia.
  assert (E : filter (fun y : string * V * Z => y.1 ∉ kv <$> A) l ≡ₚ trip <$> R).
  { eapply (@filter_perm _ _ _ _ (trip <$> A)).
    - by rewrite El, EA, fmap_app.
    - intros y Hy X. apply X. apply elem_of_list_fmap in Hy as (e & -> & Hy). by apply (elem_of_list_fmap_1 kv _ e).
    - intros y Hy X. apply elem_of_list_fmap in Hy as (e & -> & Hy). apply elem_of_list_fmap in X as (e2 & E & X). apply (N (e_value e2)); [by apply elem_of_list_fmap_1|].
      injection E as _ <-. by apply elem_of_list_fmap_1. }
  rewrite (size_perm E). unfold size_of_all. by rewrite <- list_fmap_compose.
Qed.
Lemma evict_needed s (l : list (string * V * Z)) pre d post : l ≡ₚ trip <$> all_elems s -> (exists c, Rep c s) -> kv <$> r_evict s = pre ++ d :: post ->
  q_max s < size_of_all (filter (fun y => y.1 ∉ pre) l).
Proof.
  intros El Hs E. apply fmap_app_inv in E as (A & Z0 & -> & E & EA). destruct Z0 as [|x Z0]; [done|].
  rewrite (@left_size s l A (x :: Z0 ++ all_elems (i_evict s))); [|done|done|].
  - eapply evict_need. exact EA.
  - rewrite evict_all, EA, <- app_assoc. done.
Qed.
Lemma split_at {A} (l1 l2 pre : list A) d post : l1 ++ l2 = pre ++ d :: post ->
  (exists p2, l1 = pre ++ d :: p2) \/ (exists pre2, pre = l1 ++ pre2 /\ l2 = pre2 ++ d :: post).
Proof.
  revert pre. induction l1 as [|x l1 IH]; intros pre E; [right; exists pre; done|]. destruct pre as [|p pre]; cbn in E; injection E as <- E.
  - left. by exists l1.
  - destruct (IH _ E) as [(p2 & ->)|(pre2 & -> & ->)]; [left|right]; eauto.
Qed.
Lemma insert1_max k v u s : q_max (i_insert1 clk k v u s) = q_max s.
Proof. unfold i_insert1, i_add. by destruct (q_lru _). Qed.

Lemma needed cf c h o c' r x : reach clk ord cf c h -> legal (books_of clk cf h) o -> makes_room o = true -> step clk ord o c = Ok (c', r, x) ->
  forall pre d post, x = pre ++ d :: post -> ~ other_reason o (books_of clk cf h) d ->
  b_max (books_of clk cf (h ++ [Event o r x (l_tick c) (l_tick c')])) < size_of_all (filter (fun y => y.1 ∉ pre) (ledger o (books_of clk cf h))).
Proof.
  intros H Hl Hm Hs pre d post Ex Hn. destruct (reach_more clock o H Hl) as (s & c2 & r2 & es & s' & (R & I & B & El & _) & H2 & S2 & (R2 & I2 & B2 & _)).
  rewrite Hs in H2. injection H2 as <- <- ->. rewrite books_snoc. unfold observe. cbn [b_max ev_op]. pose proof (lawful_legal o I Hl) as Hw.
  destruct o as [k v u|k v u|k|k v|k| | | | |n|k v u|t]; cbn [sim lawful makes_room other_reason ledger] in *; try done.
  - destruct S2 as (He & -> & -> & ->). destruct Hw as [Hv Hu]. set (s1 := i_evict (i_insert1 clk k v u s)) in *. set (e := new_elem k v u (clk (q_tick s))) in *.
    assert (Hpe : 0 < e_pin e) by (cbn; lia). pose proof (inv_insert clock k I Hu Hv) as I1. destruct (iv_shape I1) as [c1 R1].
    pose proof (inv_insert1 k I Hu Hv) as I0. rewrite <- (iv_max I), <- (insert1_max k v u s).
    assert (Hd : (k, v) ∉ kv <$> r_remove k s) by (intros X; by apply (removed_key k s Hv) in X as [_ X]).
    rewrite fmap_app in Ex. apply split_at in Ex as [(p2 & Ex)|(pre2 & -> & Ex)].
    + rewrite fmap_app in Ex. apply split_at in Ex as [(p3 & Ex)|(pre2 & E2 & Ex)].
      * exfalso. apply Hn. apply (removed_key k s Hv). rewrite Ex. apply elem_of_app. right. left.
      * rewrite E2, (filter_app_out fst). eapply evict_needed; [|exact (iv_shape I0)|exact Ex].
        rewrite <- (iv_alive I0). cbn [b_new b_leave b_alive]. rewrite filter_cons_True by done. done.
    + assert (G : goes e s1 = true). { unfold r_release in Ex. destruct (goes e s1); [done|]. by destruct pre2. }
      destruct (release_leave clk R1 He Hpe) as (_ & _ & G1 & _). change (i_evict (i_insert1 clk k v u s)) with s1 in G1. rewrite (G1 G) in Ex.
      destruct pre2 as [|p pre2]; [|csimpl in Ex; injection Ex as _ Ex; by destruct pre2]. rewrite app_nil_r.
      unfold goes in G. apply andb_true_iff in G as [_ G]. apply Z.ltb_lt in G. change (q_max s1) with (q_max (i_insert1 clk k v u s)) in G.
      pose proof (iv_alive I1) as X. cbn [b_insert b_alive] in X. rewrite (size_perm X). unfold size_of_all. rewrite <- list_fmap_compose. exact G.
  - destruct S2 as (-> & -> & ->). destruct Hw as [Hv Hu]. pose proof (inv_insert1 k I Hu Hv) as I0. rewrite <- (iv_max I), <- (insert1_max k v u s).
    assert (Hd : (k, v) ∉ kv <$> r_remove k s) by (intros X; by apply (removed_key k s Hv) in X as [_ X]).
    rewrite fmap_app in Ex. apply split_at in Ex as [(p3 & Ex)|(pre2 & E2 & Ex)].
    + exfalso. apply Hn. apply (removed_key k s Hv). rewrite Ex. apply elem_of_app. right. left.
    + rewrite E2, (filter_app_out fst). eapply evict_needed; [|exact (iv_shape I0)|exact Ex].
      rewrite <- (iv_alive I0). cbn [b_new b_leave b_alive]. rewrite filter_cons_True by done. done.
  - destruct S2 as (-> & e & <- & <- & Hpe & [(He & -> & ->)|(He & -> & ->)]).
    + exfalso. apply Hn. unfold r_undefer in Ex. destruct (e_pin e =? 1); [|by destruct pre]. csimpl in Ex.
      destruct pre as [|p pre]; [|injection Ex as _ Ex; by destruct pre]. injection Ex as <- _. by apply (def_not_cached I).
    + assert (G : goes e s = true). { unfold r_release in Ex. destruct (goes e s); [done|]. by destruct pre. }
      destruct (release_leave clk R He Hpe) as (_ & _ & G1 & _). rewrite (G1 G) in Ex.
      destruct pre as [|p pre]; [|csimpl in Ex; injection Ex as _ Ex; by destruct pre].
      unfold goes in G. apply andb_true_iff in G as [_ G]. apply Z.ltb_lt in G. rewrite <- (iv_max I).
      rewrite (filter_same (fun y : string * V * Z => y.1 ∉ [])) by (intros y _; apply not_elem_of_nil).
      rewrite (size_perm (iv_alive I)). unfold size_of_all. rewrite <- list_fmap_compose. exact G.
  - destruct S2 as (-> & -> & ->). change n with (q_max (with_max n s)). pose proof (inv_max n I) as I0. eapply evict_needed; [|exact (iv_shape I0)|exact Ex].
    apply (iv_alive I).
  - destruct S2 as (-> & -> & ->). rewrite <- (iv_max I). change (q_max s) with (q_max (i_resize k v u s)). pose proof (inv_resize k v I Hw) as I0.
    eapply evict_needed; [|exact (iv_shape I0)|exact Ex]. apply (iv_alive I0).
Qed.

(** ** What a lookup returns *)
Lemma lookup_latest cf c h k c' r x v : reach clk ord cf c h -> step clk ord (OLookup k) c = Ok (c', r, x) -> r = Some v -> latest k h = Some v.
Proof.
  intros H Hs Hr. apply (lookup_ret k H Hs) in Hr. apply cached_latest in Hr. rewrite latest_snoc in Hr. exact Hr.
Qed.
Lemma lookup_found cf c h1 (ev : event V) h2 k v u c' r x : reach clk ord cf c (h1 ++ ev :: h2) -> step clk ord (OLookup k) c = Ok (c', r, x) ->
  inserted_by (ev_op ev) = Some (k, v, u) -> (k, v) ∉ ev_destroyed ev ->
  (forall l1 ev2 l2, h2 ++ [Event (OLookup k) r x (l_tick c) (l_tick c')] = l1 ++ ev2 :: l2 ->
     ~ takes_out clk (cf_lru cf) (books_of clk cf (h1 ++ ev :: l1)) ev2 (k, v)) -> r = Some v.
Proof.
  intros H Hs Hi Hd Hk. apply (lookup_ret k H Hs). pose proof (kept cf h1 ev Hi Hd Hk) as X.
  by rewrite <- app_assoc.
Qed.
Lemma progress cf c h o : reach clk ord cf c h -> legal (books_of clk cf h) o -> exists c' r x, step clk ord o c = Ok (c', r, x).
Proof. intros H Hl. destruct (reach_more clock o H Hl) as (s & c2 & r2 & es & s' & _ & H2 & _). eauto. Qed.
Lemma counters cf c h : reach clk ord cf c h -> let b := books_of clk cf h in
  Size c = size_of_all (b_alive b) /\ Entries c = Z.of_nat (length (b_cached b)) /\
  PinnedSize c = size_of_all (filter (fun y => y.1 ∈ b_cached b /\ y.1 ∈ b_held b) (b_alive b)) /\
  DeferredEntries c = Z.of_nat (length (filter (fun y => y.1 ∉ b_cached b) (b_alive b))) /\
  DeferredSize c = Ok (size_of_all (filter (fun y => y.1 ∉ b_cached b) (b_alive b))) /\
  (forall k v, StillInUse k (Some v) c = Ok (bool_decide ((k, v) ∈ (b_alive b).*1))) /\
  (forall k v, peek clk c k = Some v <-> (k, v) ∈ b_cached b) /\
  (forall k v, (k, v) ∈ b_cached b -> exists t, last_use (k, v) b = Some t /\ GetLastUseTime k c = Ok t).
Proof.
  intros H b. destruct (reach_good clock H) as (s & R & I & _). split_and!.
  - by eapply size_is.
  - by eapply entries_is.
  - by eapply pinned_is.
  - by eapply deferred_entries_is.
  - by eapply deferred_size_is.
  - intros k v. by eapply still_in_use_is.
  - intros k v. by eapply peek_is.
  - intros k v. by eapply last_use_is.
Qed.
End order.

(** ** Playing a list of calls (used by the examples) *)
Section play.
Context {V : Type} `{!EqDecision V}.
Variable clk : nat -> Z.
Variable ord : hash_order.
Global Instance legal_dec (b : books V) (o : op V) : Decision (legal b o).
Proof. destruct o as [| | | | | | | | | | |[n|]]; cbn [legal]; apply _. Defined.
Fixpoint play (cf : config) (ops : list (op V)) (st : lru V * list (event V)) : option (lru V * list (event V)) :=
  match ops with
  | [] => Some st
  | o :: ops' =>
      if decide (legal (books_of clk cf st.2) o) then
        match step clk ord o st.1 with
        | Ok (c', r, x) => play cf ops' (c', st.2 ++ [Event o r x (l_tick st.1) (l_tick c')])
        | _ => None
        end
      else None
  end.
Lemma play_reach cf ops st st' : reach clk ord cf st.1 st.2 -> play cf ops st = Some st' -> reach clk ord cf st'.1 st'.2.
Proof.
  revert st. induction ops as [|o ops IH]; intros st H; cbn [play]; [by intros [= <-]|].
  destruct (decide _) as [Hl|]; [|done]. destruct (step clk ord o st.1) as [[[c' r] x]| | |] eqn:E; try done.
  apply IH. cbn. by eapply reach_step.
Qed.
Definition start (cf : config) : option (lru V * list (event V)) :=
  match SetTimeout recorder clk 2 (cf_timeout cf) (cf_lru cf) (NewCache (cf_max cf), []) with Ok (c, _) => Some (c, []) | _ => None end.
Lemma start_reach cf st : (forall n, cf_timeout cf = Some n -> 0 <= n) -> start cf = Some st -> reach clk ord cf st.1 st.2.
Proof.
  unfold start. intros Ht. destruct (SetTimeout _ _ _ _ _ _) as [[c x]| | |] eqn:E; try done. intros [= <-]. by eapply reach_new.
Qed.
End play.
