(** The pointer-level cache, continued: sizes, removal of everything, the observers and whole histories. *)
From Verif Require Import Base Proto Lru LruSim LruOps LruSpec LruInv LruBooks LruStep LruProofs LruClaims LruOrder LinkedList LinkedListProofs LinkLay PLru PLruProofs.
From stdpp Require Import gmap list.
Local Open Scope Z_scope.
Set Implicit Arguments.
Unset Strict Implicit.

Section proofs.
Context {V U : Type} `{!EqDecision V}.
Variable del : string -> V -> world (V:=V) (U:=U) -> outcome (world (V:=V) (U:=U)).
Variable f : string -> V -> pworld (V:=V) (U:=U) -> outcome (pworld (V:=V) (U:=U)).
Variable clk : nat -> Z.
Variable ord : hash_order.
Implicit Types (p : plru V) (c : lru V) (e : elem V) (u : U) (l : list nat) (D : gmap string (list nat)) (T : gmap string nat).

(** ** Sizes of deferred elements, in any order *)
Lemma store_comm i j (ei ej : elem V) c : i <> j -> store i ei (store j ej c) = store j ej (store i ei c).
Proof. intros N. unfold store, set_heap. cbn. f_equal. by apply insert_commute. Qed.
Lemma resize_swap i j ids v x c : i <> j -> resize_deferred (i :: j :: ids) v x c = resize_deferred (j :: i :: ids) v x c.
Proof.
  intros N. cbn [resize_deferred]. unfold load.
  destruct (l_heap c !! i) as [ei|] eqn:Ei; destruct (l_heap c !! j) as [ej|] eqn:Ej; cbn [obind]; try done.
  - set (hi := match v with None => true | Some v => bool_decide (e_value ei = v) end). set (hj := match v with None => true | Some v => bool_decide (e_value ej = v) end).
    assert (E1 : l_heap (if hi then store i (set_elem_units x ei) (set_units (l_units c - e_units ei + x) c) else c) !! j = Some ej).
    { destruct hi; [|done]. cbn. by rewrite lookup_insert_ne. }
    assert (E2 : l_heap (if hj then store j (set_elem_units x ej) (set_units (l_units c - e_units ej + x) c) else c) !! i = Some ei).
    { destruct hj; [|done]. cbn. by rewrite lookup_insert_ne. }
    rewrite E1, E2. cbn [obind]. fold hi hj. f_equal. destruct hi, hj; try done.
    unfold store, set_heap, set_units. cbn. f_equal; [by apply insert_commute|lia].
  - set (hi := match v with None => true | Some v => bool_decide (e_value ei = v) end).
    assert (E1 : l_heap (if hi then store i (set_elem_units x ei) (set_units (l_units c - e_units ei + x) c) else c) !! j = None).
    { destruct hi; [|done]. cbn. by rewrite lookup_insert_ne. }
    by rewrite E1.
  - set (hj := match v with None => true | Some v => bool_decide (e_value ej = v) end).
    assert (E2 : l_heap (if hj then store j (set_elem_units x ej) (set_units (l_units c - e_units ej + x) c) else c) !! i = None).
    { destruct hj; [|done]. cbn. by rewrite lookup_insert_ne. }
    by rewrite E2.
Qed.
Lemma resize_perm v x (l1 l2 : list nat) : l1 ≡ₚ l2 -> NoDup l1 -> forall c, resize_deferred l1 v x c = resize_deferred l2 v x c.
Proof.
  induction 1 as [|i l1 l2 _ IH|i j l1|l1 l2 l3 H1 IH1 H2 IH2]; intros N c.
  - done.
  - apply NoDup_cons in N as [_ N]. cbn [resize_deferred]. destruct (load i c) as [e| | |]; cbn [obind]; try done. by apply IH.
  - apply resize_swap. apply NoDup_cons in N as [N _]. intros ->. apply N. left.
  - rewrite IH1 by done. apply IH2. by rewrite <- H1.
Qed.
Lemma p_resize_ok T l D k h t v x : D !! k = Some (h :: t) -> forall t1 i, (i = h /\ t1 = t \/ exists t2, t = t1 ++ i :: t2) ->
  forall n p c', (length t1 < n)%nat -> Wf T p l D -> resize_deferred (i :: rev t1) v x (shape l D p) = Ok c' ->
  exists p', p_resize n h i v x p = Ok p' /\ c' = shape l D p' /\ Wf T p' l D /\ p_table p' = p_table p.
Proof.
  intros Ed. intros t1. induction t1 as [|j t1 IH] using rev_ind; intros i Hi n p c' Hn W H; (destruct n as [|n]; [lia|]); cbn [p_resize];
    assert (Hin : i ∈ h :: t) by (destruct Hi as [[-> _]|[t2 ->]]; [left|right; apply elem_of_app; right; left]);
    destruct (wf_keys W Ed Hin) as (e & Ee & _); unfold pload; rewrite Ee; cbn [obind]; cbn [resize_deferred] in H; unfold load in H;
    change (l_heap (shape l D p)) with (p_heap p) in H; rewrite Ee in H; cbn [obind] in H;
    set (hit := match v with None => true | Some v => bool_decide (e_value e = v) end) in *;
    set (p1 := if hit then pstore i (set_elem_units x e) (pset_units (p_units p - e_units e + x) p) else p);
    (assert (Es : (if hit then store i (set_elem_units x e) (set_units (l_units (shape l D p) - e_units e + x) (shape l D p)) else shape l D p) = shape l D p1) by (unfold p1; by destruct hit));
    rewrite Es in H; clear Es;
    (assert (W1 : Wf T p1 l D) by (unfold p1; destruct hit; [|exact W]; eapply wf_store; [|exact Ee|done]; exact (wf_same (p := p) (q := pset_units (p_units p - e_units e + x) p) eq_refl eq_refl eq_refl eq_refl W)));
    assert (Et : p_table p1 = p_table p) by (unfold p1; by destruct hit).
  - assert (Ep : prev_elem i p1 = Ok h).
    { destruct Hi as [[-> <-]|[t2 Et2]]; [exact (prev_elem_head W1 Ed)|]. exact (prev_elem_tail (t1 := []) W1 Ed Et2). }
    rewrite Ep. cbn [obind]. rewrite decide_True by done. cbn [rev resize_deferred] in H. injection H as <-. by exists p1.
  - assert (Ep : prev_elem i p1 = Ok j).
    { destruct Hi as [[-> <-]|[t2 Et2]]; [rewrite (prev_elem_head W1 Ed)|rewrite (prev_elem_tail W1 Ed Et2)]; by rewrite List.last_last. }
    assert (Hj : j ∈ t) by (destruct Hi as [[_ <-]|[t2 ->]]; rewrite !elem_of_app; [right; left|left; right; left]).
    assert (Nj : j <> h). { pose proof (ring_nodup W Ed) as N. apply NoDup_cons in N as [N _]. by intros ->. }
    rewrite Ep. cbn [obind]. rewrite decide_False by done. rewrite rev_unit in H. rewrite app_length in Hn. cbn in Hn.
    apply (IH j) with (n := n) in H as (p' & E1 & E2 & E3 & E4).
    + exists p'. split_and!; [done..|]. by rewrite E4.
    + right. destruct Hi as [[_ <-]|[t2 ->]]; [by exists []|]. exists (i :: t2). by rewrite <- app_assoc.
    + lia.
    + done.
Qed.
Lemma update_size_ok n k v x p c u c' u' : faithful del f -> Ok_ p c -> UpdateSize del n k v x (c, u) = Ok (c', u') -> exists p', PUpdateSize f n k v x (p, u) = Ok (p', u') /\ Ok_ p' c'.
Proof.
  intros F (l & D & -> & W) H. unfold UpdateSize in H. unfold PUpdateSize. cbn [fst snd] in *.
  change (l_table (shape l D p)) with (p_table p) in H. change (l_defer (shape l D p)) with D in H.
  assert (G : forall c1, (match D !! k with None => Ok (shape l D p) | Some t => resize_deferred t v x (shape l D p) end) = Ok c1 ->
    exists p1, (match p_defer p !! k with None => Ok p | Some h => p_resize (S (size (p_links p))) h h v x p end) = Ok p1 /\ Ok_ p1 c1).
  { intros c1 H1. rewrite (wf_heads W). destruct (D !! k) as [[|h t]|] eqn:Ed; cbn [mbind option_bind head].
    - by apply (wf_nonnil W) in Ed.
    - pose proof (ring_nodup W Ed) as N. pose proof (ring_fuel W Ed) as Fu. cbn in Fu.
      rewrite (@resize_perm v x (h :: t) (h :: rev t)) in H1; [|by rewrite (Permutation_rev t) at 1|done].
      apply (@p_resize_ok (p_table p) l D k h t v x Ed t h) with (n := S (size (p_links p))) in H1 as (p1 & E1 & E2 & E3 & E4); [|by left|lia|done].
      exists p1. split; [done|]. exists l, D. by rewrite E4.
    - injection H1 as <-. exists p. split; [done|]. by exists l, D. }
  match type of H with (let! c := ?X in _) = _ => destruct X as [c1| | |] eqn:E1 end; cbn [obind] in H; try discriminate.
  assert (G2 : exists p1, (match p_table p !! k with
    | Some n =>
        let! e := pload n p in
        if match v with None => true | Some v => bool_decide (e_value e = v) end then
          let p := pset_units (p_units p - e_units e + x) p in
          let p := if 0 <? e_pin e then pset_pinned (p_pinned p - e_units e + x) p else p in
          Ok (pstore n (set_elem_units x e) p)
        else match p_defer p !! k with None => Ok p | Some h => p_resize (S (size (p_links p))) h h v x p end
    | None => match p_defer p !! k with None => Ok p | Some h => p_resize (S (size (p_links p))) h h v x p end
    end) = Ok p1 /\ Ok_ p1 c1).
  { destruct (p_table p !! k) as [i|] eqn:Et; [|by apply G].
    destruct (wf_tab W Et) as (e & Ee & K & Y). unfold load in E1. unfold pload. cbn [shape l_heap] in E1. rewrite Ee in *. cbn [obind] in *.
    destruct (match v with None => true | Some v => bool_decide (e_value e = v) end); [|by apply G].
    destruct (0 <? e_pin e); injection E1 as <-; (eexists; split; [done|]; exists l, D; split; [done|]; eapply wf_store; [|exact Ee|done]).
    - exact (wf_same (p := p) (q := pset_pinned (p_pinned p - e_units e + x) (pset_units (p_units p - e_units e + x) p)) eq_refl eq_refl eq_refl eq_refl W).
    - exact (wf_same (p := p) (q := pset_units (p_units p - e_units e + x) p) eq_refl eq_refl eq_refl eq_refl W). }
  destruct G2 as (p1 & Ep1 & R1).
  match goal with |- exists p', obind ?X _ = _ /\ _ => assert (EX : X = Ok p1) by exact Ep1; rewrite EX; clear EX end.
  cbn [obind]. by eapply garbage_ok.
Qed.

(** ** The observers *)
Lemma any_value_is ids v c : (forall n, n ∈ ids -> is_Some (l_heap c !! n)) ->
  any_value ids v c = Ok (existsb (fun n => match l_heap c !! n with Some e => match v with None => true | Some v => bool_decide (e_value e = v) end | None => false end) ids).
Proof.
  induction ids as [|i ids IH]; intros H; [done|]. cbn [any_value existsb]. unfold load.
  destruct (H i) as [e Ee]; [left|]. rewrite Ee. cbn [obind].
  destruct (match v with None => true | Some v => bool_decide (e_value e = v) end); [done|]. cbn. apply IH. intros n Hn. apply H. by right.
Qed.
Lemma existsb_perm (g : nat -> bool) l1 l2 : l1 ≡ₚ l2 -> existsb g l1 = existsb g l2.
Proof. induction 1 as [|i l1 l2 _ IH|i j l1|l1 l2 l3 _ IH1 _ IH2]; cbn; [done|by rewrite IH| |by rewrite IH1]. by destruct (g i), (g j). Qed.
Lemma p_any_ok T p l D k h t v : Wf T p l D -> D !! k = Some (h :: t) -> forall t1 i, (i = h /\ t1 = t \/ exists t2, t = t1 ++ i :: t2) ->
  forall n, (length t1 < n)%nat -> p_any n h i v p = any_value (i :: rev t1) v (shape l D p).
Proof.
  intros W Ed. intros t1. induction t1 as [|j t1 IH] using rev_ind; intros i Hi n Hn; (destruct n as [|n]; [lia|]); cbn [p_any];
    assert (Hin : i ∈ h :: t) by (destruct Hi as [[-> _]|[t2 ->]]; [left|right; apply elem_of_app; right; left]);
    destruct (wf_keys W Ed Hin) as (e & Ee & _); unfold pload; rewrite Ee; cbn [obind any_value]; unfold load;
    cbn [shape l_heap]; rewrite Ee; cbn [obind]; destruct (match v with None => true | Some v => bool_decide (e_value e = v) end); try done.
  - assert (Ep : prev_elem i p = Ok h).
    { destruct Hi as [[-> <-]|[t2 Et2]]; [exact (prev_elem_head W Ed)|]. exact (prev_elem_tail (t1 := []) W Ed Et2). }
    rewrite Ep. cbn [obind]. by rewrite decide_True.
  - assert (Ep : prev_elem i p = Ok j).
    { destruct Hi as [[-> <-]|[t2 Et2]]; [rewrite (prev_elem_head W Ed)|rewrite (prev_elem_tail W Ed Et2)]; by rewrite List.last_last. }
    assert (Hj : j ∈ t) by (destruct Hi as [[_ <-]|[t2 ->]]; rewrite !elem_of_app; [right; left|left; right; left]).
    assert (Nj : j <> h). { pose proof (ring_nodup W Ed) as N. apply NoDup_cons in N as [N _]. by intros ->. }
    rewrite Ep. cbn [obind]. rewrite decide_False by done. rewrite rev_unit. rewrite app_length in Hn. cbn in Hn.
    rewrite IH; [done| |lia]. right. destruct Hi as [[_ <-]|[t2 ->]]; [by exists []|]. exists (i :: t2). by rewrite <- app_assoc.
Qed.
Lemma in_deferred_ok k v p c : Ok_ p c -> PInDeferredTable k v p = InDeferredTable k v c.
Proof.
  intros (l & D & -> & W). unfold PInDeferredTable, InDeferredTable. cbn [shape l_defer]. rewrite (wf_heads W).
  destruct (D !! k) as [[|h t]|] eqn:Ed; cbn [mbind option_bind head]; [by apply (wf_nonnil W) in Ed| |done].
  pose proof (ring_fuel W Ed) as Fu. cbn in Fu. rewrite (@p_any_ok _ p l D k h t v W Ed t h); [|by left|lia].
  assert (A : forall n, n ∈ h :: t -> is_Some (p_heap p !! n)) by (intros n Hn; destruct (wf_keys W Ed Hn) as (e & E & _); by eexists).
  rewrite !any_value_is; cbn [shape l_heap]; [| |].
  - f_equal. apply existsb_perm. by rewrite <- (Permutation_rev t).
  - done.
  - intros n Hn. apply A. by rewrite (Permutation_rev t).
Qed.
Lemma still_in_use_ok k v p c : Ok_ p c -> PStillInUse k v p = StillInUse k v c.
Proof.
  intros R. unfold PStillInUse, StillInUse. rewrite (in_deferred_ok k v R). destruct R as (l & D & -> & W). done.
Qed.
Lemma age_ok p c : Ok_ p c -> PAgeOfLRUItem clk p = AgeOfLRUItem clk c.
Proof.
  intros (l & D & -> & W). unfold PAgeOfLRUItem, AgeOfLRUItem. rewrite (tail_ptr W). cbn [obind]. unfold list_tail. cbn [shape l_list].
  by destruct (last l).
Qed.
Definition units_sum c (ids : list nat) : Z := sum_Z ((fun n => match l_heap c !! n with Some e => e_units e | None => 0 end) <$> ids).
Lemma sum_units_is ids c : (forall n, n ∈ ids -> is_Some (l_heap c !! n)) -> sum_units ids c = Ok (units_sum c ids).
Proof.
  unfold units_sum. induction ids as [|i ids IH]; intros H; [done|]. cbn [sum_units]. unfold load. destruct (H i) as [e Ee]; [left|].
  rewrite IH by (intros n Hn; apply H; by right). rewrite fmap_cons, sum_Z_cons. by rewrite Ee.
Qed.
Lemma p_count_ok T p l D k h t : Wf T p l D -> D !! k = Some (h :: t) -> forall t1 i, (i = h /\ t1 = t \/ exists t2, t = t1 ++ i :: t2) ->
  forall n, (length t1 < n)%nat -> p_count n h i p = Ok (Z.of_nat (length (i :: t1)), units_sum (shape l D p) (i :: rev t1)).
Proof.
  intros W Ed. intros t1. induction t1 as [|j t1 IH] using rev_ind; intros i Hi n Hn; (destruct n as [|n]; [lia|]); cbn [p_count];
    assert (Hin : i ∈ h :: t) by (destruct Hi as [[-> _]|[t2 ->]]; [left|right; apply elem_of_app; right; left]);
    destruct (wf_keys W Ed Hin) as (e & Ee & _); unfold pload; rewrite Ee; cbn [obind].
  - assert (Ep : prev_elem i p = Ok h).
    { destruct Hi as [[-> <-]|[t2 Et2]]; [exact (prev_elem_head W Ed)|]. exact (prev_elem_tail (t1 := []) W Ed Et2). }
    rewrite Ep. cbn [obind]. rewrite decide_True by done. unfold units_sum. cbn [rev]. rewrite fmap_cons, sum_Z_cons. cbn [shape l_heap]. rewrite Ee.
    cbn. change (sum_Z []) with 0. do 2 f_equal. lia.
  - assert (Ep : prev_elem i p = Ok j).
    { destruct Hi as [[-> <-]|[t2 Et2]]; [rewrite (prev_elem_head W Ed)|rewrite (prev_elem_tail W Ed Et2)]; by rewrite List.last_last. }
    assert (Hj : j ∈ t) by (destruct Hi as [[_ <-]|[t2 ->]]; rewrite !elem_of_app; [right; left|left; right; left]).
    assert (Nj : j <> h). { pose proof (ring_nodup W Ed) as N. apply NoDup_cons in N as [N _]. by intros ->. }
    rewrite Ep. cbn [obind]. rewrite decide_False by done. rewrite rev_unit. rewrite app_length in Hn. cbn in Hn.
    rewrite IH; [| |lia].
    + cbn [obind fst snd]. unfold units_sum. rewrite !fmap_cons, !sum_Z_cons. cbn [shape l_heap]. rewrite Ee. do 2 f_equal. cbn [length]. rewrite app_length. cbn [length]. lia.
    + right. destruct Hi as [[_ <-]|[t2 ->]]; [by exists []|]. exists (i :: t2). by rewrite <- app_assoc.
Qed.
Lemma units_sum_perm c l1 l2 : l1 ≡ₚ l2 -> units_sum c l1 = units_sum c l2.
Proof. intros E. unfold units_sum. apply sum_Z_perm. by rewrite E. Qed.
Lemma units_sum_app c l1 l2 : units_sum c (l1 ++ l2) = units_sum c l1 + units_sum c l2.
Proof. unfold units_sum. by rewrite fmap_app, sum_Z_app. Qed.
Lemma p_count_all_ok T p l D : Wf T p l D -> forall R : list (string * list nat), (forall k t, (k, t) ∈ R -> D !! k = Some t) ->
  p_count_all ((fun kt => hd 0%nat kt.2) <$> R) p = Ok (Z.of_nat (length (R ≫= snd)), units_sum (shape l D p) (R ≫= snd)).
Proof.
  intros W R. induction R as [|[k t] R IH]; intros HR; [done|]. rewrite fmap_cons. cbn [p_count_all].
  assert (Ed : D !! k = Some t) by (apply HR; left). destruct t as [|h t]; [by apply (wf_nonnil W) in Ed|]. cbn [snd hd].
  pose proof (ring_fuel W Ed) as Fu. cbn in Fu. rewrite (@p_count_ok _ p l D k h t W Ed t h); [|by left|lia]. cbn [obind].
  rewrite IH by (intros k' t' X; apply HR; by right). cbn [obind fst snd]. rewrite bind_cons. cbn [snd]. rewrite app_length, units_sum_app.
  do 2 f_equal; [lia|]. f_equal. apply units_sum_perm. by rewrite <- (Permutation_rev t).
Qed.
Lemma count_perm p (l1 l2 : list nat) : l1 ≡ₚ l2 -> forall r, p_count_all l1 p = Ok r -> p_count_all l2 p = Ok r.
Proof.
  induction 1 as [|h l1 l2 _ IH|h j l1|l1 l2 l3 _ IH1 _ IH2]; intros r H; [done| | |by apply IH2, IH1].
  - cbn [p_count_all] in *. destruct (p_count _ h h p) as [r1| | |]; cbn [obind] in *; try discriminate.
    destruct (p_count_all l1 p) as [r2| | |]; cbn [obind] in *; try discriminate. by rewrite (IH _ eq_refl).
  - cbn [p_count_all] in *. destruct (p_count _ j j p) as [r1| | |]; cbn [obind] in *; try discriminate.
    destruct (p_count _ h h p) as [r2| | |]; cbn [obind] in *; try discriminate.
    destruct (p_count_all l1 p) as [r3| | |]; cbn [obind] in *; try discriminate. injection H as <-. cbn [fst snd]. do 2 f_equal; lia.
Qed.
Lemma count_deferred_ok p c : Ok_ p c -> exists s, DeferredSize c = Ok s /\ PCountDeferred p = Ok (DeferredEntries c, s).
Proof.
  intros (l & D & -> & W). unfold DeferredSize, DeferredEntries, deferred_ids, PCountDeferred. cbn [shape l_defer].
  exists (units_sum (shape l D p) (map_to_list D ≫= snd)). split.
  - apply sum_units_is. intros n Hn. apply elem_of_list_bind in Hn as ([k t] & Hn & Hk). apply elem_of_map_to_list in Hk.
    destruct (wf_keys W Hk Hn) as (e & E & _). cbn. by eexists.
  - assert (E : p_defer p = hd 0%nat <$> D).
    { apply map_eq. intros k. rewrite (wf_heads W), lookup_fmap. destruct (D !! k) as [[|h t]|] eqn:Ed; [by apply (wf_nonnil W) in Ed|done|done]. }
    eapply count_perm; [|apply (p_count_all_ok W (R := map_to_list D)); intros k t X; by apply elem_of_map_to_list in X].
    rewrite E, map_to_list_fmap, <- list_fmap_compose. done.
Qed.
Lemma destroy_ok p c : Ok_ p c -> (p_defer p = ∅ <-> l_defer c = ∅) /\ p_table p = l_table c.
Proof.
  intros (l & D & -> & W). split; [|done]. cbn [shape l_defer]. split; intros E; apply map_eq; intros k.
  - pose proof (wf_heads W k) as H. rewrite E, lookup_empty in H. rewrite lookup_empty. destruct (D !! k) as [[|h t]|] eqn:Ed; [by apply (wf_nonnil W) in Ed|done|done].
  - by rewrite (wf_heads W), E, !lookup_empty.
Qed.

(** ** Removing everything, when the deleter leaves the cache alone *)
Hypothesis S0 : silent del f.
Lemma remove_each_ok (ids : list (string * nat)) : forall T p l D u c' u', Wf T p l D -> NoDup ids.*1 -> (forall k n, (k, n) ∈ ids -> T !! k = Some n) ->
  remove_each del ids (shape l D p, u) = Ok (c', u') ->
  exists p' l' D' T', p_remove_each f ids (p, u) = Ok (p', u') /\ c' = shape l' D' p' /\ Wf T' p' l' D'.
Proof.
  induction ids as [|[k n] ids IH]; intros T p l D u c' u' W N HT H; cbn [remove_each p_remove_each] in *.
  - injection H as <- <-. by exists p, l, D, T.
  - rewrite fmap_cons in N. apply NoDup_cons in N as [N1 N2]. cbn [fst] in N1. assert (Et : T !! k = Some n) by (apply HT; left).
    destruct (wf_tab W Et) as (e & Ee & K & Y). pose proof (wf_other W Et) as Z0.
    destruct (RemoveElem del n (shape l D p, u)) as [[c1 u1]| | |] eqn:E1; cbn [obind] in H; try discriminate.
    apply (remove_elem_silent S0 (wf_delete k W) Ee Y Z0) in E1 as (p1 & l1 & D1 & E1 & -> & W1 & _). rewrite E1. cbn [obind].
    eapply IH; [exact W1|done| |exact H]. intros k' n' X. rewrite lookup_delete_ne; [apply HT; by right|].
    intros ->. apply N1. apply elem_of_list_fmap. by exists (k', n').
Qed.
Lemma remove_all_ok p c u c' u' : Ok_ p c -> RemoveAll del ord (c, u) = Ok (c', u') -> exists p', PRemoveAll f ord (p, u) = Ok (p', u') /\ Ok_ p' c'.
Proof.
  intros (l & D & -> & W) H. unfold RemoveAll in H. unfold PRemoveAll. cbn [fst snd] in *. change (l_table (shape l D p)) with (p_table p) in H.
  destruct (remove_each del _ (shape l D p, u)) as [[c1 u1]| | |] eqn:E1; cbn [obind] in H; try discriminate.
  pose proof (ho_perm ord (p_table p)) as Hp.
  apply (remove_each_ok W) in E1 as (p1 & l1 & D1 & T1 & Ep & -> & W1).
  - rewrite Ep. cbn [obind fst snd] in *. injection H as <- <-. eexists. split; [done|]. exists l1, D1. split; [done|].
    cbn [pset_table p_table]. assert (W2 : Wf ∅ p1 l1 D1) by (eapply wf_sub; [|exact W1]; done).
    exact (wf_same (p := p1) (q := pset_table ∅ p1) eq_refl eq_refl eq_refl eq_refl W2).
  - rewrite Hp. apply NoDup_fst_map_to_list.
  - intros k n X. rewrite Hp in X. by apply elem_of_map_to_list in X.
Qed.
(** Clear frees the elements where they are. *)
Lemma discard_each_ok (ids : list (string * nat)) : forall p l D u c' u', (forall n, is_Some (p_links p !! S n) <-> is_Some (p_heap p !! n)) ->
  discard_each del ids (shape l D p, u) = Ok (c', u') ->
  exists p', p_discard_each f ids (p, u) = Ok (p', u') /\ c' = shape l D p' /\ (forall n, is_Some (p_links p' !! S n) <-> is_Some (p_heap p' !! n)) /\
    p_links p' !! 0%nat = p_links p !! 0%nat /\ p_defer p' = p_defer p /\ (forall n, is_Some (p_heap p' !! n) <-> is_Some (p_heap p !! n) /\ n ∉ ids.*2).
Proof.
  induction ids as [|[k n] ids IH]; intros p l D u c' u' Hd H; cbn [discard_each p_discard_each] in *.
  - injection H as <- <-. exists p. split_and!; try done. intros n. split; [|by intros [? _]]. intros X. split; [done|]. apply not_elem_of_nil.
  - unfold Discard, load in H. cbn [fst snd shape l_heap] in H. unfold PDiscard, pload. cbn [fst snd].
    destruct (p_heap p !! n) as [e|] eqn:E; cbn [obind] in *; [|discriminate].
    destruct (assert_ (e_pin e =? 0)) as [[]| | |] eqn:Ea; cbn [obind] in *; try discriminate.
    match type of H with context [del ?k ?v ?w] => destruct (del k v w) as [[c1 u1]| | |] eqn:Edl end; cbn [obind] in H; try discriminate.
    apply S0 in Edl as [-> Edl]. rewrite Edl. cbn [obind fst snd].
    cbn [fst snd set_units l_heap shape] in H. rewrite E in H. cbn [obind] in H.
    assert (A : is_Some (p_links p !! S n)) by (apply Hd; by eexists). destruct A as [nd A].
    rewrite (@on_links_ok _ _ _ (delete (S n) (p_links p))) by (cbn; unfold PFree, rd; by rewrite A). cbn [obind].
    set (p1 := pset_heap (delete n (p_heap p)) (pset_links (delete (S n) (p_links p)) (pset_units (p_units p - e_units e) p))).
    change (set_heap _ _) with (shape l D p1) in H.
    apply IH in H as (p' & E1 & E2 & E3 & E4 & E5 & E6).
    + exists p'. split_and!; [exact E1|done|done| |by rewrite E5|].
      * rewrite E4. cbn [p1 pset_heap p_links pset_links]. by rewrite lookup_delete_ne.
      * intros x. rewrite E6. cbn [p1 pset_heap p_heap]. rewrite fmap_cons, not_elem_of_cons. cbn [snd]. split.
        -- intros [[y X] Y]. apply lookup_delete_Some in X as [X1 X]. split; [by eexists|]. split; [congruence|done].
        -- intros (X & X1 & Y). rewrite lookup_delete_ne by congruence. done.
    + intros x. cbn [p1 pset_heap p_heap p_links pset_links pset_units]. destruct (decide (x = n)) as [->|X]; [rewrite !lookup_delete; split; by intros [? ?]|].
      rewrite !lookup_delete_ne by congruence. apply Hd.
Qed.
Lemma lay_empty m : m !! 0%nat = Some (Node (Some 0%nat) (Some 0%nat)) -> (forall n, m !! S n = None) -> Lay m [] ∅.
Proof.
  intros E1 E2. exists []. split.
  - cbn. by apply NoDup_singleton.
  - intros x. cbn. destruct x as [|x]; [rewrite E1|rewrite E2]; split.
    + intros _. left.
    + intros _. by eexists.
    + by intros [? ?].
    + intros X. apply elem_of_list_singleton in X. done.
  - intros r Hr. cbn in Hr. apply elem_of_list_singleton in Hr as ->. cbn. constructor; [|constructor]. split; cbn; [unfold nx|unfold pv]; by rewrite E1.
  - intros x X. cbn in X. by apply elem_of_nil in X.
Qed.
Lemma clear_ok p c u c' u' : Ok_ p c -> (forall n, is_Some (l_heap c !! n) -> (exists k, l_table c !! k = Some n) \/ deferred (l_defer c) n) ->
  Clear del ord (c, u) = Ok (c', u') -> exists p', PClear f ord (p, u) = Ok (p', u') /\ Ok_ p' c'.
Proof.
  intros (l & D & -> & W) HA H. unfold Clear in H. unfold PClear. cbn [fst snd] in *. change (l_table (shape l D p)) with (p_table p) in *.
  change (l_defer (shape l D p)) with D in HA. change (l_heap (shape l D p)) with (p_heap p) in HA.
  destruct (discard_each del _ (shape l D p, u)) as [[c1 u1]| | |] eqn:E1; cbn [obind] in H; try discriminate.
  pose proof (ho_perm ord (p_table p)) as Hp.
  apply discard_each_ok in E1 as (p1 & E1 & -> & E3 & E4 & E5 & E6); [|exact (wf_dom W)]. rewrite E1. cbn [obind fst snd] in *.
  cbn [shape l_defer] in H. case_bool_decide as Ed; [|discriminate]. cbn [assert_ obind] in H. subst D.
  assert (Ed1 : p_defer p1 = ∅). { rewrite E5. apply map_eq. intros k. by rewrite (wf_heads W), !lookup_empty. }
  rewrite bool_decide_eq_true_2 by done. cbn [assert_ obind].
  assert (Hh : forall n, p_heap p1 !! n = None).
  { intros n. destruct (p_heap p1 !! n) as [e|] eqn:E; [|done]. exfalso. destruct (proj1 (E6 n)) as [X Y]; [by eexists|].
    destruct (HA n X) as [[k Hk]|(k & t & Hk & _)]; [|by rewrite lookup_empty in Hk].
    apply Y. rewrite Hp. apply elem_of_list_fmap. exists (k, n). split; [done|]. by apply elem_of_map_to_list. }
  assert (Hl : forall n, p_links p1 !! S n = None).
  { intros n. destruct (p_links p1 !! S n) as [nd|] eqn:E; [|done]. exfalso. destruct (proj1 (E3 n)) as [e X]; [by eexists|]. by rewrite Hh in X. }
  destruct (lay_head (wf_lay W)) as [nd A]. rewrite <- E4 in A.
  set (m := <[0%nat := Node (Some 0%nat) (Some 0%nat)]> (p_links p1)).
  assert (Em : PSelf 0 (p_links p1) = Ok m).
  { unfold PSelf, wr_prev, wr_next, rd. rewrite A. cbn [obind]. rewrite lookup_insert. cbn [obind n_prev]. by rewrite insert_insert. }
  rewrite (@on_links_ok _ _ _ m) by exact Em. cbn [obind]. injection H as <- <-. eexists. split; [done|].
  exists [], ∅. split; [done|]. split; cbn [pset_pinned pset_units pset_links pset_table p_links p_heap p_defer p_next p_table].
  - apply lay_empty; [by apply lookup_insert|]. intros n. unfold m. by rewrite lookup_insert_ne.
  - intros n. unfold m. rewrite lookup_insert_ne by done. rewrite Hl, Hh. split; by intros [? ?].
  - intros k. by rewrite Ed1, !lookup_empty.
  - intros k. by rewrite lookup_empty.
  - intros k t n X. by rewrite lookup_empty in X.
  - intros k n X. by rewrite lookup_empty in X.
  - intros n [e X]. by rewrite Hh in X.
Qed.
End proofs.
