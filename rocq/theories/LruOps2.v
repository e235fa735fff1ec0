(** The remaining cache operations in the list view (proof-internal vocabulary). *)
From stdpp Require Import gmap.
From Verif Require Import Base Proto Lru LruSim LruOps.
Local Open Scope Z_scope.
Set Implicit Arguments.
Local Arguments sum_Z : simpl never.

Section ops2.
Context {V U : Type} `{!EqDecision V}.
Implicit Types (c : lru V) (s : ideal V) (e : elem V) (L P D : list (nat * elem V)).
Variable f : U -> string * V -> outcome U.
Variable clk : nat -> Z.
Variable ord : hash_order.
Notation wrld := (world (V:=V) (U:=U)).
Notation runs := (runs (U:=U) f).
Notation passive := (passive f).

Ltac proj := unfold store, Unlink, after_now, set_heap, set_next, set_table, set_defer, set_list, set_units, set_max, set_pinned, set_idle, set_lru, set_tick;
  cbn [l_heap l_next_id l_table l_defer l_list l_units l_max l_pinned l_idle l_lru l_tick fst snd].

(** ** Release *)
Lemma op_release c s e : Rep c s -> e ∈ all_elems s -> 0 < e_pin e ->
  exists c' es s', runs (Release passive clk (e_key e) (e_value e)) c (kv <$> es) pair c' /\ Rep c' s' /\
    ((e ∈ q_def s /\ s' = i_undefer e s /\ es = r_undefer e s) \/
     (e ∈ cached_elems s /\ s' = i_release clk e s /\ es = r_release clk e s)).
Proof.
  intros R H Hp. assert (Hcd : e ∈ q_def s \/ e ∈ cached_elems s) by (unfold all_elems in H; unfold cached_elems; rewrite !elem_of_app in *; tauto).
  destruct Hcd as [Hd|Hc].
  - destruct (op_release_deferred f clk R Hd) as (c' & R1 & P1). eauto 10.
  - assert (Hd : e ∉ q_def s).
    { intros Hd. pose proof (rep_vals R) as N. unfold all_elems in N. rewrite app_assoc in N. fold (cached_elems s) in N. rewrite fmap_app in N.
      apply NoDup_app in N as (_ & N & _). apply (N (e_value e)); by apply elem_of_list_fmap_1. }
    destruct (op_release_cached f clk R Hc Hp) as (c' & R1 & P1). exists c', (r_release clk e s), (i_release clk e s).
    split; [|split; [done|by right]]. eapply runs_ext; [|exact R1]. intros u. unfold Release, ReleaseWithOptions. cbn [fst].
    destruct R as (L & P & D & A). pose proof (scan_def clk (e_key e) (e_value e) A) as Hs.
    destruct (l_defer c !! e_key e) as [l|]; [|done].
    destruct Hs as [[-> _]|(id & e0 & -> & X & Hk & Hv & _)]; [done|].
    exfalso. apply Hd. assert (e0 = e) as <-; [|rewrite (ab_def (proj1 A)); by apply (elem_of_list_fmap_1 snd _ (id, e0))].
    assert (R' : Rep c s) by by exists L, P, D.
    eapply value_inj; [exact R'| |exact H|done]. unfold all_elems. rewrite !elem_of_app. right; right.
    rewrite (ab_def (proj1 A)); by apply (elem_of_list_fmap_1 snd _ (id, e0)).
Qed.

(** ** SetMaxSize, SetTimeout *)
Lemma op_setmax c s n fuel : Rep c s -> (length (q_lst s) < fuel)%nat ->
  exists c', runs (SetMaxSize passive fuel n) c (kv <$> r_evict (with_max n s)) pair c' /\ Rep c' (i_evict (with_max n s)).
Proof.
  intros R Hf. destruct (op_gc f (fuel := fuel) (rep_max n R)) as (c' & R1 & P1); [done|]. exists c'. split; [|done].
  intros u. rewrite <- R1. done.
Qed.

Definition timeout_of (o : option Z) : Z := match o with Some n => n | None => -1 end.
Lemma op_settimeout c s o fuel : Rep c s -> Timed s -> (length (q_lst s) < fuel)%nat -> (forall n, o = Some n -> 0 <= n) ->
  exists c', runs (SetTimeout passive clk fuel o (l_lru c)) c (kv <$> r_expire clk (with_idle (timeout_of o) s)) pair c' /\
             Rep c' (i_expire clk (with_idle (timeout_of o) s)).
Proof.
  intros R T Hf Ho.
  assert (Eset : set_lru (l_lru c) c = c) by by destruct c.
  destruct o as [n|]; cbn [timeout_of].
  - specialize (Ho n eq_refl).
    destruct (op_idle f clk (fuel := fuel) (i := n) (rep_idle n R)) as (c' & R1 & P1); [done|done|done|done|].
    exists c'. split; [|done]. intros u. rewrite <- R1. unfold SetTimeout. cbn [fst snd]. rewrite Eset, eqb_reflx, andb_false_r. done.
  - exists (set_idle (-1) c). unfold r_expire, i_expire. cbn [with_idle q_idle]. split; [|by apply rep_idle].
    apply runs_nil. intros u. unfold SetTimeout. cbn [fst snd]. by rewrite Eset.
Qed.

(** ** UpdateSize *)
Definition sized (u : Z) e : elem V := set_elem_units u e.
Definition at_kv (k : string) (v : V) (g : elem V -> elem V) (l : list (elem V)) : list (elem V) :=
  (fun x => if decide (e_key x = k /\ e_value x = v) then g x else x) <$> l.
Definition i_resize (k : string) (v : V) (u : Z) (s : ideal V) : ideal V :=
  with_lists (at_kv k v (sized u) (q_lst s)) (at_kv k v (sized u) (q_pin s)) (at_kv k v (sized u) (q_def s)) s.

Lemma at_kv_out k v g l : (forall x, x ∈ l -> ~ (e_key x = k /\ e_value x = v)) -> at_kv k v g l = l.
Proof.
  intros H. unfold at_kv. rewrite <- (list_fmap_id l) at 2. apply list_fmap_ext. intros i x Hx.
  rewrite decide_False; [done|]. apply H. by eapply elem_of_list_lookup_2.
Qed.
Lemma at_kv_app k v g l1 l2 : at_kv k v g (l1 ++ l2) = at_kv k v g l1 ++ at_kv k v g l2.
Proof. apply fmap_app. Qed.
Lemma at_kv_hit k v g e l : e_key e = k -> e_value e = v -> at_kv k v g (e :: l) = g e :: at_kv k v g l.
Proof. intros. unfold at_kv. csimpl. by rewrite decide_True. Qed.

Lemma resize_spec ids v u c (h : nat -> elem V) : NoDup ids -> (forall i, i ∈ ids -> l_heap c !! i = Some (h i)) ->
  (forall i j, i ∈ ids -> j ∈ ids -> e_value (h i) = v -> e_value (h j) = v -> i = j) ->
  (resize_deferred ids (Some v) u c = Ok c /\ forall i, i ∈ ids -> e_value (h i) <> v) \/
  (exists i, resize_deferred ids (Some v) u c = Ok (store i (sized u (h i)) (set_units (l_units c - e_units (h i) + u) c)) /\ i ∈ ids /\ e_value (h i) = v).
Proof.
  induction ids as [|i ids IH]; intros N Hh Hu.
  - left. split; [done|]. intros i H. by apply elem_of_nil in H.
  - apply NoDup_cons in N as [N1 N2]. cbn [resize_deferred]. unfold load. rewrite (Hh i (elem_of_list_here _ _)). cbn [obind].
    destruct (decide (e_value (h i) = v)) as [E|E].
    + rewrite bool_decide_true by done. right. exists i. split_and!; [|left|done].
      set (c' := store i _ _).
      assert (G : forall js, (forall j, j ∈ js -> j ∈ ids) -> resize_deferred js (Some v) u c' = Ok c').
      { induction js as [|j js IHj]; intros Hj; [done|]. cbn [resize_deferred].
        assert (Hne : j <> i) by (intros ->; apply N1, Hj; left).
        assert (Hjj : l_heap c' !! j = Some (h j)).
        { unfold c'. proj. rewrite lookup_insert_ne by done. apply Hh. right. apply Hj. left. }
        unfold load. rewrite Hjj. cbn [obind]. rewrite bool_decide_false.
        - apply IHj. intros x Hx. apply Hj. by right.
        - intros Ev. apply Hne. apply Hu; [right; apply Hj; left|left|done|done]. }
      by apply G.
    + rewrite bool_decide_false by done. destruct IH as [[E1 E2]|(j & E1 & E2 & E3)].
      * done.
      * intros j Hj. apply Hh. by right.
      * intros a b Ha Hb. apply Hu; by right.
      * left. split; [done|]. intros j Hj. apply elem_of_cons in Hj as [->|Hj]; auto.
      * right. exists j. split_and!; [done|by right|done].
Qed.

Definition resize_body (k : string) (v : V) (u : Z) (c : lru V) : outcome (lru V) :=
  let deferred (_ : unit) :=
    match l_defer c !! k with None => Ok c | Some l => resize_deferred l (Some v) u c end in
  match l_table c !! k with
  | Some id =>
      let! e := load id c in
      if bool_decide (e_value e = v) then
        let c := set_units (l_units c - e_units e + u) c in
        let c := if 0 <? e_pin e then set_pinned (l_pinned c - e_units e + u) c else c in
        Ok (store id (set_elem_units u e) c)
      else deferred tt
  | None => deferred tt
  end.

Lemma op_resize c s k v u : Rep c s -> 0 <= u -> exists c', resize_body k v u c = Ok c' /\ Rep c' (i_resize k v u s).
Proof.
  intros R Hu. pose proof R as (L & P & D & A).
  assert (Huniq : forall x y, x ∈ all_elems s -> y ∈ all_elems s -> e_value x = v -> e_value y = v -> x = y).
  { intros x y Hx Hy Ex Ey. eapply value_inj; [exact R|done|done|congruence]. }
  (* no element matches outside the split *)
  assert (Hother : forall a e b, all_elems s ≡ₚ e :: a ++ b -> e_value e = v -> forall x, x ∈ a \/ x ∈ b -> ~ (e_key x = k /\ e_value x = v)).
  { intros a e b E Ev x Hx [_ Hxv]. pose proof (rep_vals R) as N. rewrite E in N. csimpl in N. apply NoDup_cons in N as [N _]. apply N.
    rewrite Ev, <- Hxv. apply elem_of_list_fmap_1. by apply elem_of_app. }
  assert (Hdef : (forall x, x ∈ cached_elems s -> ~ (e_key x = k /\ e_value x = v)) ->
     exists c', match l_defer c !! k with None => Ok c | Some l => resize_deferred l (Some v) u c end = Ok c' /\ Rep c' (i_resize k v u s)).
  { intros Hc. unfold i_resize.
    assert (Q1 : at_kv k v (sized u) (q_lst s) = q_lst s) by (apply at_kv_out; intros; apply Hc; unfold cached_elems; rewrite elem_of_app; auto).
    assert (Q2 : at_kv k v (sized u) (q_pin s) = q_pin s) by (apply at_kv_out; intros; apply Hc; unfold cached_elems; rewrite elem_of_app; auto).
    rewrite Q1, Q2. pose proof (ab_defer (proj1 A) k) as Hd.
    assert (Hnone : (forall x, x ∈ q_def s -> ~ (e_key x = k /\ e_value x = v)) -> Rep c (with_lists (q_lst s) (q_pin s) (at_kv k v (sized u) (q_def s)) s)).
    { intros X. rewrite at_kv_out by done. by rewrite with_lists_same. }
    destruct (l_defer c !! k) as [l|] eqn:El.
    - pose proof (Hd : l ≡ₚ _) as Hl.
      assert (Hin : forall i, i ∈ l <-> exists e, (i, e) ∈ D /\ e_key e = k) by (intros i; rewrite Hl; apply of_key_elem).
      pose (h := fun i => match l_heap c !! i with Some e => e | None => Elem ""%string v 0 0 0 end).
      assert (Hh : forall i e, (i, e) ∈ D -> l_heap c !! i = Some e /\ h i = e).
      { intros i e H. assert (X : l_heap c !! i = Some e) by (apply (core_look _ _ (proj1 A)); rewrite !elem_of_app; auto). unfold h. by rewrite X. }
      assert (Hdd : forall i e, (i, e) ∈ D -> e ∈ q_def s) by (intros i e H; rewrite (ab_def (proj1 A)); by apply (elem_of_list_fmap_1 snd _ (i, e))).
      destruct (@resize_spec l v u c h) as [[E1 E2]|(i & E1 & E2 & E3)].
      + rewrite Hl. eapply of_key_nodup, A.
      + intros i Hi. apply Hin in Hi as (e & He & _). destruct (Hh _ _ He) as [? ->]. done.
      + intros i j Hi Hj Ei Ej. apply Hin in Hi as (ei & Hi & _). apply Hin in Hj as (ej & Hj & _).
        destruct (Hh _ _ Hi) as [_ Xi]. destruct (Hh _ _ Hj) as [_ Xj]. rewrite Xi in Ei. rewrite Xj in Ej.
        assert (ei = ej) as <-.
        { apply Huniq; [| |done|done]; unfold all_elems; rewrite !elem_of_app; eauto. }
        pose proof (rep_vals R) as N. unfold all_elems in N. rewrite (ab_def (proj1 A)) in N. rewrite !(fmap_app e_value (q_lst s)), !(fmap_app e_value (q_pin s)) in N.
        apply NoDup_app in N as (_ & _ & N). apply NoDup_app in N as (_ & _ & N). rewrite <- list_fmap_compose in N.
        clear -N Hi Hj. induction D as [|[a b] D IH]; [by apply elem_of_nil in Hi|]. csimpl in N. apply NoDup_cons in N as [N1 N2].
        apply elem_of_cons in Hi, Hj. destruct Hi as [Hi|Hi], Hj as [Hj|Hj].
        * congruence.
        * exfalso. apply N1. injection Hi as -> ->. by apply (elem_of_list_fmap_1 (e_value ∘ snd) _ (j, b)).
        * exfalso. apply N1. injection Hj as -> ->. by apply (elem_of_list_fmap_1 (e_value ∘ snd) _ (i, b)).
        * by apply IH.
      + exists c. split; [done|]. apply Hnone. intros x Hx [Hxk Hxv]. rewrite (ab_def (proj1 A)) in Hx. apply elem_of_list_fmap in Hx as ([i y] & Ey & Hx). cbn in Ey. subst y.
        apply (E2 i); [apply Hin; eauto|]. destruct (Hh _ _ Hx) as [_ ->]. done.
      + apply Hin in E2 as (e & He & Hk). destruct (Hh _ _ He) as [Xh Xe]. rewrite Xe in *. eexists. split; [exact E1|].
        assert (Hpos : 0 < e_pin e). { pose proof (ab_defpin (proj1 A)) as F. rewrite Forall_forall in F. apply F. eauto. }
        apply elem_of_list_split in He as (Da & Db & ->).
        assert (Hall : all_elems s ≡ₚ e :: (cached_elems s ++ Da.*2) ++ Db.*2).
        { unfold all_elems, cached_elems. rewrite (ab_def (proj1 A)), fmap_app. csimpl. rewrite !app_assoc. symmetry. apply Permutation_middle. }
        assert (Q3 : at_kv k v (sized u) (q_def s) = Da.*2 ++ sized u e :: Db.*2).
        { rewrite (ab_def (proj1 A)), fmap_app. csimpl. rewrite at_kv_app, at_kv_hit by done.
          rewrite !at_kv_out; [done| |]; intros x Hx; (eapply Hother; [exact Hall|done|rewrite elem_of_app; tauto]). }
        rewrite Q3. exists L, P, (Da ++ (i, sized u e) :: Db).
        apply (@update_deferred V clk c s L P Da i e Db (sized u e)); try done.
    - exists c. split; [done|]. apply Hnone. intros x Hx [Hxk Hxv]. rewrite (ab_def (proj1 A)) in Hx. apply elem_of_list_fmap in Hx as ([i y] & Ey & Hx). cbn in Ey. subst y.
      apply Permutation_nil in Hd. assert (X : i ∈ of_key k D) by (apply of_key_elem; eauto). rewrite Hd in X. by apply elem_of_nil in X. }
  unfold resize_body. destruct (l_table c !! k) as [id|] eqn:Et.
  - apply (abs_tab _ _ A) in Et as Et'. destruct Et' as (e & He & Hk).
    assert (Hh : l_heap c !! id = Some e) by (apply (core_look _ _ (proj1 A)); rewrite app_assoc, elem_of_app; auto).
    assert (Hc : e ∈ cached_elems s).
    { unfold cached_elems. rewrite (ab_lst (proj1 A)), (ab_pin (proj1 A)), <- fmap_app. by apply (elem_of_list_fmap_1 snd _ (id, e)). }
    unfold load. rewrite Hh. cbn [obind]. destruct (decide (e_value e = v)) as [Ev|Ev].
    2:{ rewrite bool_decide_false by done. apply Hdef. intros x Hx [Hxk Hxv]. apply Ev. rewrite <- Hxv. f_equal.
        pose proof (rep_keys R) as N. assert (Y : e_key e = e_key x) by congruence. revert N Hc Hx Y. generalize (cached_elems s). clear.
        intros l N H1 H2 E. induction l as [|y l IH]; [by apply elem_of_nil in H1|].
        csimpl in N. apply NoDup_cons in N as [N1 N2]. apply elem_of_cons in H1, H2.
        destruct H1 as [->|H1], H2 as [->|H2]; auto; exfalso; apply N1.
        - rewrite E. by apply elem_of_list_fmap_1.
        - rewrite <- E. by apply elem_of_list_fmap_1. }
    rewrite bool_decide_true by done. eexists. split; [reflexivity|].
    destruct (elem_pos R (cached_all _ Hc)) as [Hp0 Hu0].
    set (pi := if 0 <? e_pin e then l_pinned c - e_units e + u else l_pinned c).
    assert (Hpi : pi = l_pinned c - (if 0 <? e_pin e then e_units e else 0) + (if 0 <? e_pin (sized u e) then e_units (sized u e) else 0)).
    { unfold pi, sized, set_elem_units. cbn [e_pin e_units]. destruct (0 <? e_pin e); lia. }
    unfold i_resize. rewrite elem_of_app in He. destruct He as [He|He]; apply elem_of_list_split in He as (La & Lb & ->).
    + assert (Hall : all_elems s ≡ₚ e :: La.*2 ++ (Lb.*2 ++ q_pin s ++ q_def s)).
      { unfold all_elems. rewrite (ab_lst (proj1 A)), fmap_app. csimpl. rewrite <- app_assoc. cbn [app]. symmetry. apply Permutation_middle. }
      pose proof (Hother _ _ _ Hall Ev) as Ho.
      rewrite (ab_lst (proj1 A)), fmap_app. csimpl. rewrite at_kv_app, at_kv_hit by done.
      rewrite !at_kv_out by (intros x Hx; apply Ho; rewrite ?elem_of_app; tauto).
      pose proof (@update_cached V c s _ _ D id e (sized u e) (La ++ (id, sized u e) :: Lb) P ((La ++ Lb) ++ P) (l_units c - e_units e + u) pi A) as X.
      assert (X2 : Abs (Lru (<[id := sized u e]> (l_heap c)) (l_next_id c) (l_table c) (l_defer c) (La ++ (id, sized u e) :: Lb).*1 (l_units c - e_units e + u) (l_max c) pi (l_idle c) (l_lru c) (l_tick c))
          (with_lists (La ++ (id, sized u e) :: Lb).*2 P.*2 (q_def s) s) (La ++ (id, sized u e) :: Lb) P D).
      { apply X; try done.
        - rewrite <- !app_assoc. cbn. symmetry. apply Permutation_middle.
        - rewrite <- !app_assoc. cbn. symmetry. apply Permutation_middle.
        - intros Q. pose proof (ab_lstpin (proj1 A) Q) as F. rewrite (ab_lst (proj1 A)), fmap_app in F. csimpl in F.
          rewrite fmap_app. csimpl. rewrite Forall_app, Forall_cons in *. done.
        - rewrite <- (ab_pin (proj1 A)). apply (ab_pinpin (proj1 A)).
        - intros Q. pose proof (ab_pinlru (proj1 A) Q) as E0. rewrite (ab_pin (proj1 A)) in E0. by apply fmap_nil_inv in E0. }
      rewrite !fmap_app in X2. csimpl in X2. rewrite <- (ab_pin (proj1 A)) in X2.
      pose proof (ab_list (proj1 A)) as Xl. rewrite fmap_app in Xl. csimpl in Xl. rewrite <- Xl in X2.
      eexists _, _, _. unfold pi in X2. destruct (0 <? e_pin e); exact X2.
    + assert (Hall : all_elems s ≡ₚ e :: (q_lst s ++ La.*2) ++ (Lb.*2 ++ q_def s)).
      { unfold all_elems. rewrite (ab_pin (proj1 A)), fmap_app. csimpl. rewrite <- !app_assoc. cbn [app]. rewrite !app_assoc. rewrite <- !app_assoc. rewrite (app_assoc (q_lst s)). rewrite (app_assoc (q_lst s) La.*2 (Lb.*2 ++ q_def s)). symmetry. apply Permutation_middle. }
      pose proof (Hother _ _ _ Hall Ev) as Ho.
      rewrite (ab_pin (proj1 A)), fmap_app. csimpl. rewrite at_kv_app, at_kv_hit by done.
      rewrite !at_kv_out by (intros x Hx; apply Ho; rewrite ?elem_of_app; tauto).
      pose proof (@update_cached V c s _ _ D id e (sized u e) L (La ++ (id, sized u e) :: Lb) (L ++ La ++ Lb) (l_units c - e_units e + u) pi A) as X.
      assert (X2 : Abs (Lru (<[id := sized u e]> (l_heap c)) (l_next_id c) (l_table c) (l_defer c) L.*1 (l_units c - e_units e + u) (l_max c) pi (l_idle c) (l_lru c) (l_tick c))
          (with_lists L.*2 (La ++ (id, sized u e) :: Lb).*2 (q_def s) s) L (La ++ (id, sized u e) :: Lb) D).
      { apply X; try done.
        - rewrite !app_assoc. symmetry. apply Permutation_middle.
        - rewrite !app_assoc. symmetry. apply Permutation_middle.
        - intros Q. rewrite <- (ab_lst (proj1 A)). by apply (ab_lstpin (proj1 A)).
        - pose proof (ab_pinpin (proj1 A)) as F. rewrite (ab_pin (proj1 A)), fmap_app in F. csimpl in F.
          rewrite fmap_app. csimpl. rewrite Forall_app, Forall_cons in *. done.
        - intros Q. pose proof (ab_pinlru (proj1 A) Q) as E0. rewrite (ab_pin (proj1 A)), fmap_app in E0. csimpl in E0. by destruct (La.*2). }
      rewrite !fmap_app in X2. csimpl in X2. rewrite <- (ab_lst (proj1 A)) in X2.
      pose proof (ab_list (proj1 A)) as Xl. rewrite <- Xl in X2.
      eexists _, _, _. unfold pi in X2. destruct (0 <? e_pin e); exact X2.
  - apply Hdef. intros x Hx [Hxk _]. unfold cached_elems in Hx. rewrite (ab_lst (proj1 A)), (ab_pin (proj1 A)), <- fmap_app in Hx.
    apply elem_of_list_fmap in Hx as ([i y] & Ey & Hx). cbn in Ey. subst y.
    assert (Y : l_table c !! k = Some i) by (apply (abs_tab _ _ A); eauto). congruence.
Qed.

Lemma op_updatesize c s k v u fuel : Rep c s -> (length (q_lst s) < fuel)%nat -> 0 <= u ->
  exists c', runs (UpdateSize passive fuel k (Some v) u) c (kv <$> r_evict (i_resize k v u s)) pair c' /\ Rep c' (i_evict (i_resize k v u s)).
Proof.
  intros R Hf Hu. destruct (op_resize k v R Hu) as (c1 & E1 & P1).
  destruct (op_gc f (fuel := fuel) P1) as (c2 & R2 & P2).
  { unfold i_resize, at_kv. cbn [with_lists q_lst]. by rewrite fmap_length. }
  exists c2. split; [|done]. intros w. rewrite <- R2. unfold UpdateSize. cbn [fst snd]. unfold resize_body in E1.
  fold (resize_body k v u c) in E1. change (obind (resize_body k v u c) (fun c => GarbageCollect passive fuel (c, w)) = GarbageCollect passive fuel (c1, w)).
  by rewrite E1.
Qed.

(** ** RemoveAll, RemoveUnpinned, Clear *)
Definition i_unpinned (s : ideal V) : ideal V := with_lists (filter (fun e => e_pin e <> 0) (q_lst s)) (q_pin s) (q_def s) s.
Lemma op_unpinned c s fuel : Rep c s -> (length (q_lst s) < fuel)%nat ->
  exists c', runs (RemoveUnpinned passive fuel) c (kv <$> dead (q_lst s)) pair c' /\ Rep c' (i_unpinned s).
Proof.
  intros (L & P & D & A) Hf. destruct (@unpinned_runs V U f L fuel c s [] P D A) as (c' & L' & D' & R & A').
  { rewrite (ab_lst (proj1 A)), fmap_length in Hf. done. }
  exists c'. unfold i_unpinned. rewrite (ab_lst (proj1 A)). split.
  - intros u. rewrite <- R. unfold RemoveUnpinned. cbn [fst]. by rewrite (ab_list (proj1 A)).
  - exists L', P, D'. exact A'.
Qed.

Lemma op_removeall c s : Rep c s -> exists c' es,
  es ≡ₚ cached_elems s /\ runs (RemoveAll passive ord) c (kv <$> dead es) pair c' /\ Rep c' (with_lists [] [] (detached es (q_def s)) s).
Proof.
  intros (L & P & D & [A T]).
  destruct (removeall_runs f (T := ho_list ord (l_table c)) A) as (c' & es & D' & E & R & A').
  { rewrite (ho_perm ord (l_table c)). exact T. }
  exists (set_table ∅ c'), es. split; [done|]. split.
  - rewrite <- (app_nil_r (kv <$> dead es)). eapply runs_ext; [|eapply (runs_bind2 R (o2 := fun w => Ok (set_table ∅ w.1, w.2)))].
    + intros u. done.
    + by apply runs_nil.
  - exists [], [], D'. split; [by apply core_table|]. cbn. by rewrite map_to_list_empty.
Qed.

Lemma op_clear c s : Rep c s -> Forall (fun e => e_pin e = 0) (all_elems s) -> exists c' es,
  es ≡ₚ all_elems s /\ runs (Clear passive ord) c (kv <$> es) pair c' /\ Rep c' (with_lists [] [] [] s).
Proof.
  intros (L & P & D & [A T]) F.
  assert (Hd : q_def s = []).
  { destruct (q_def s) as [|x d] eqn:E; [done|]. exfalso. pose proof (ab_defpin A) as G. rewrite E in G. apply Forall_cons in G as [G _].
    rewrite Forall_forall in F. specialize (F x). unfold all_elems in F. rewrite E, !elem_of_app, elem_of_cons in F. specialize (F ltac:(auto)). cbn in F. lia. }
  assert (D = []) as ->. { pose proof (ab_def A) as X. rewrite Hd in X. symmetry in X. by apply fmap_nil_inv in X. }
  destruct (clear_runs f (T := ho_list ord (l_table c)) c (R := L ++ P)) as (es & un & E & R).
  - rewrite (ab_heap A). by rewrite app_nil_r.
  - rewrite (ho_perm ord (l_table c)). exact T.
  - unfold all_elems in F. rewrite Hd, app_nil_r, (ab_lst A), (ab_pin A), <- fmap_app in F. by rewrite Forall_fmap in F.
  - assert (Hde : l_defer c = ∅).
    { apply map_eq. intros k. rewrite lookup_empty. pose proof (ab_defer A k) as X. cbn in X.
      destruct (l_defer c !! k) as [l|] eqn:El; [|done]. cbn in X. apply Permutation_sym, Permutation_nil in X. subst l. by destruct (ab_nonnil A k). }
    exists (Lru ∅ (l_next_id c) ∅ (l_defer c) [] 0 (l_max c) 0 (l_idle c) (l_lru c) (l_tick c)), es. split; [unfold all_elems; by rewrite Hd, app_nil_r, (ab_lst A), (ab_pin A), <- fmap_app|]. split.
    + rewrite <- (app_nil_r (kv <$> es)). eapply runs_ext; [|eapply (runs_bind2 R (o2 := fun w =>
        let! _ := assert_ (bool_decide (l_defer w.1 = ∅)) in
        Ok (set_pinned 0 (set_units 0 (set_list [] (set_table ∅ w.1))), w.2)))].
      * intros u. done.
      * apply runs_nil. intros u. cbn [fst snd]. rewrite bool_decide_true by done. reflexivity.
    + exists [], [], []. split; [|cbn; by rewrite map_to_list_empty].
      constructor; cbn [with_lists q_lst q_pin q_def q_max q_idle q_lru q_tick]; proj; try done; try apply A.
      all: constructor.
Qed.

(** ** Insert *)
Lemma op_insert c s k v u fuel : Rep c s -> (S (length (q_lst s)) < fuel)%nat -> 0 <= u -> v ∉ e_value <$> all_elems s ->
  let s1 := i_evict (i_insert1 clk k v u s) in
  let e := new_elem k v u (clk (q_tick s)) in
  exists c', runs (Insert passive clk fuel k v u) c (kv <$> (r_remove k s ++ r_evict (i_insert1 clk k v u s)) ++ r_release clk e s1) pair c' /\
             Rep c' (i_release clk e s1) /\ e ∈ cached_elems s1.
Proof.
  intros R Hf Hu Hv s1 e. destruct (op_insertpinned f clk k R Hf Hu Hv) as (c1 & R1 & P1).
  fold s1 in P1.
  assert (Hc : e ∈ cached_elems s1).
  { assert (Hin : forall mx tot r x, x ∈ r -> e_pin x <> 0 -> x ∈ (evict (V:=V) mx tot r).1).
    { intros mx tot r. revert tot. induction r as [|y r IH]; intros tot x Hx Hp; [done|]. cbn [evict].
      apply elem_of_cons in Hx. destruct (mx <? tot); [|cbn [fst]; by apply elem_of_cons]. destruct (e_pin y =? 0) eqn:E0; cbn [fst].
      - apply Z.eqb_eq in E0. destruct Hx as [->|Hx]; [done|]. by apply IH.
      - apply elem_of_cons. destruct Hx as [->|Hx]; [by left|]. right. by apply IH. }
    unfold s1, i_evict, cached_elems, i_insert1, i_add. fold e. cbn [with_tick i_remove with_lists q_lru].
    destruct (q_lru s); cbn [with_lists with_tick q_lst q_pin q_def]; rewrite elem_of_app.
    - right. left.
    - left. rewrite elem_of_list_In, <- in_rev, <- elem_of_list_In. apply Hin; [|done]. rewrite elem_of_list_In, <- in_rev, <- elem_of_list_In. left. }
  destruct (op_release P1 (cached_all _ Hc)) as (c2 & es & s2 & R2 & P2 & X); [done|].
  assert (Hnd : e ∉ q_def s1).
  { intros Hd. pose proof (rep_vals P1) as N. unfold all_elems in N. rewrite app_assoc in N. fold (cached_elems s1) in N. rewrite fmap_app in N.
    apply NoDup_app in N as (_ & N & _). apply (N (e_value e)); by apply elem_of_list_fmap_1. }
  destruct X as [[X _]|(_ & -> & ->)]; [done|].
  exists c2. split; [|done]. rewrite fmap_app. exact (runs_bind2 R1 R2).
Qed.
End ops2.
