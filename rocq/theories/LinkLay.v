(** The layout of the cache's pointers: one ring through head_ (address 0) with the elements of the recency list, and
    one ring for the deferred elements of each key.  Element number [n] is at address [S n].  (Proof-internal.) *)
From Verif Require Import Base Proto LinkedList LinkedListProofs.
From stdpp Require Import gmap list.
Local Open Scope nat_scope.
Set Implicit Arguments.
Unset Strict Implicit.
Implicit Types (m : pheap) (l t : list nat) (D : gmap string (list nat)).

(** ** Rings in any order *)
Lemma concat_perm (R1 R2 : list (list nat)) : R1 ≡ₚ R2 -> concat R1 ≡ₚ concat R2.
Proof.
  induction 1 as [|x R1 R2 _ IH|x y R|R1 R2 R3 _ IH1 _ IH2]; cbn; [done|by rewrite IH| |by rewrite IH1].
  rewrite !app_assoc. by rewrite (Permutation_app_comm y x).
Qed.
Lemma rng_perm m R1 R2 l1 l2 : R1 ≡ₚ R2 -> l1 ≡ₚ l2 -> Rng m (Rings R1 l1) -> Rng m (Rings R2 l2).
Proof.
  intros E1 E2 [H1 H2 H3 H4]. cbn in *. pose proof (concat_perm E1) as E. split; cbn.
  - by rewrite <- E, <- E2.
  - intros x. by rewrite H2, E, E2.
  - intros r Hr. apply H3. by rewrite E1.
  - intros x Hx. apply H4. by rewrite E2.
Qed.
Lemma rng_nil m R l1 : Rng m (Rings ([] :: R) l1) -> Rng m (Rings R l1).
Proof. intros [H1 H2 H3 H4]. cbn in *. split; cbn; [done|done| |done]. intros r Hr. apply H3. by right. Qed.
Lemma rng_rot m a b R l1 : Rng m (Rings ((a ++ b) :: R) l1) -> Rng m (Rings ((b ++ a) :: R) l1).
Proof.
  intros [H1 H2 H3 H4]. cbn [r_rings r_loose concat] in *.
  assert (E : ((a ++ b) ++ concat R) ++ l1 ≡ₚ ((b ++ a) ++ concat R) ++ l1) by (by rewrite (Permutation_app_comm a b)).
  split; cbn [r_rings r_loose concat]; [by rewrite <- E| | |done].
  - intros x. by rewrite H2, E.
  - intros r Hr. apply elem_of_cons in Hr as [->|Hr]; [|apply H3; by right]. rewrite around_rot. apply H3. left.
Qed.

(** ** The layout *)
Definition main (l : list nat) : list nat := 0 :: (S <$> l).
Definition defs D : list (list nat) := (fun kl : string * list nat => S <$> kl.2) <$> map_to_list D.
Definition deferred D (n : nat) : Prop := exists k l, D !! k = Some l /\ n ∈ l.
Definition Lay m l D : Prop := exists loose, Rng m (Rings (main l :: defs D) loose).

Lemma in_defs D n : S n ∈ concat (defs D) <-> deferred D n.
Proof.
  rewrite LinkedListProofs.in_concat. unfold defs, deferred. split.
  - intros (r & Hr & Hn). apply elem_of_list_fmap in Hr as ([k l] & -> & Hr). apply elem_of_map_to_list in Hr.
    apply elem_of_list_fmap in Hn as (n' & [= ->] & Hn). eauto.
  - intros (k & l & Hk & Hn). exists (S <$> l). split; [|by apply elem_of_list_fmap_1]. apply elem_of_list_fmap. exists (k, l). split; [done|]. by apply elem_of_map_to_list.
Qed.
Lemma in_main l n : S n ∈ main l <-> n ∈ l.
Proof.
  unfold main. rewrite elem_of_cons. split.
  - intros [?|H]; [done|]. by apply elem_of_list_fmap in H as (n' & [= ->] & H).
  - intros H. right. by apply elem_of_list_fmap_1.
Qed.
Lemma lay_head m l D : Lay m l D -> is_Some (m !! 0).
Proof. intros [loose H]. apply (rg_dom _ _ H). cbn. left. Qed.
Lemma lay_listed m l D n : Lay m l D -> n ∈ l -> is_Some (m !! S n).
Proof. intros [loose H] X. apply (rg_dom _ _ H). cbn [r_rings concat r_loose]. apply elem_of_app; left. apply elem_of_app; left. by apply (proj2 (in_main _ _)). Qed.
Lemma lay_deferred m l D n : Lay m l D -> deferred D n -> is_Some (m !! S n).
Proof. intros [loose H] X. apply (rg_dom _ _ H). cbn [r_rings concat r_loose]. apply elem_of_app; left. apply elem_of_app; right. by apply in_defs. Qed.
Lemma lay_nodup m l D : Lay m l D -> NoDup l.
Proof.
  intros [loose H]. pose proof (rg_dup _ _ H) as N. cbn [r_rings concat r_loose] in N. apply NoDup_app in N as (N & _ & _). apply NoDup_app in N as (N & _ & _).
  unfold main in N. apply NoDup_cons in N as [_ N]. by apply NoDup_fmap_1 in N.
Qed.
Lemma lay_disjoint m l D n : Lay m l D -> n ∈ l -> ~ deferred D n.
Proof.
  intros [loose H] X Y. pose proof (rg_dup _ _ H) as N. cbn [r_rings concat r_loose] in N. apply NoDup_app in N as (N & _ & _). apply NoDup_app in N as (_ & N & _).
  apply (N (S n)); [by apply (proj2 (in_main _ _))|by apply in_defs].
Qed.
(** The ring of a key, in front. *)
Lemma defs_split D k l : D !! k = Some l -> defs D ≡ₚ (S <$> l) :: defs (delete k D).
Proof.
  intros E. unfold defs. rewrite <- (insert_delete D k l E) at 1. rewrite map_to_list_insert by apply lookup_delete. done.
Qed.
Lemma defs_insert D k l : defs (<[k := l]> D) ≡ₚ (S <$> l) :: defs (delete k D).
Proof. rewrite (@defs_split _ k l) by apply lookup_insert. by rewrite delete_insert_delete. Qed.
Lemma defs_fresh D k : D !! k = None -> delete k D = D.
Proof. apply delete_notin. Qed.
Lemma lay_ring m l D k t : Lay m l D -> D !! k = Some t -> exists loose, Rng m (Rings ((S <$> t) :: main l :: defs (delete k D)) loose).
Proof. intros [loose H] E. exists loose. eapply rng_perm; [|done|exact H]. rewrite (defs_split E). apply Permutation_swap. Qed.
Lemma lay_of_ring m l D k t loose : Rng m (Rings ((S <$> t) :: main l :: defs (delete k D)) loose) -> Lay m l (<[k := t]> D).
Proof. intros H. exists loose. eapply rng_perm; [|done|exact H]. rewrite defs_insert. apply Permutation_swap. Qed.
Lemma deferred_insert D k l n : deferred (<[k := l]> D) n <-> n ∈ l \/ deferred (delete k D) n.
Proof.
  unfold deferred. split.
  - intros (k' & l' & H & X). destruct (decide (k = k')) as [->|N]; [rewrite lookup_insert in H; injection H as <-; by left|].
    rewrite lookup_insert_ne in H by done. right. exists k', l'. by rewrite lookup_delete_ne.
  - intros [H|(k' & l' & H & X)]; [exists k, l; by rewrite lookup_insert|]. exists k', l'. apply lookup_delete_Some in H as [N H].
    by rewrite lookup_insert_ne.
Qed.
Lemma deferred_delete D k n : deferred (delete k D) n -> deferred D n.
Proof. intros (k' & l' & H & X). apply lookup_delete_Some in H as [N H]. by exists k', l'. Qed.

Definition same_dom m m' : Prop := forall x, is_Some (m' !! x) <-> is_Some (m !! x).

Lemma fmap_without n l : without (S n) (S <$> l) = S <$> filter (fun x => x <> n) l.
Proof.
  induction l as [|x l IH]; [done|]. rewrite fmap_cons. unfold without in *. rewrite !filter_cons. destruct (decide (x <> n)) as [N|N].
  - rewrite decide_True by lia. rewrite fmap_cons, <- IH. done.
  - rewrite decide_False by lia. exact IH.
Qed.
Lemma loose_of m l D n : Lay m l D -> is_Some (m !! S n) -> n ∉ l -> ~ deferred D n -> exists loose, Rng m (Rings (main l :: defs D) loose) /\ S n ∈ loose.
Proof.
  intros [loose H] A X Y. exists loose. split; [done|]. apply (rg_dom _ _ H) in A. cbn [r_rings concat r_loose] in A.
  apply elem_of_app in A as [A|A]; [|done]. apply elem_of_app in A as [A|A].
  - exfalso. exact (X (proj1 (in_main l n) A)).
  - apply in_defs in A. exfalso. exact (Y A).
Qed.
Lemma fmap_without_main n l : without (S n) (main l) = main (filter (fun x => x <> n) l).
Proof.
  unfold main. rewrite <- fmap_without. unfold without. rewrite filter_cons. by rewrite decide_True by lia.
Qed.
Lemma rng_same_dom m m' s s' : Rng m s -> Rng m' s' -> concat (r_rings s') ++ r_loose s' ≡ₚ concat (r_rings s) ++ r_loose s -> same_dom m m'.
Proof. intros H H' E x. by rewrite (rg_dom _ _ H'), (rg_dom _ _ H), E. Qed.
Lemma map_without x (R : list (list nat)) : x ∉ concat R -> without x <$> R = R.
Proof. apply map_out. intros l. apply without_out. Qed.

(** Unlink of an element of the recency list, or of one on no list. *)
Lemma filter_all l n : n ∉ l -> filter (fun x => x <> n) l = l.
Proof. apply without_out. Qed.
Lemma lay_unlink m l D n : Lay m l D -> is_Some (m !! S n) -> ~ deferred D n ->
  exists m', PUnlink (S n) m = Ok m' /\ Lay m' (filter (fun x => x <> n) l) D /\ same_dom m m'.
Proof.
  intros L A Y. destruct (decide (n ∈ l)) as [X|X].
  - destruct L as [loose H]. assert (O : on_list (S n) (Rings (main l :: defs D) loose)).
    { unfold on_list. cbn [r_rings concat]. apply elem_of_app. left. by apply (proj2 (in_main _ _)). }
    destruct (rng_unlink _ _ _ H O) as (m' & E & R). exists m'. split; [done|].
    cbn [rstep r_rings r_loose] in R. rewrite fmap_cons in R. rewrite (@map_without (S n) (defs D)) in R by (by rewrite in_defs). rewrite fmap_without_main in R.
    split; [by eexists|]. eapply rng_same_dom; [exact H|exact R|]. cbn [r_rings concat r_loose]. rewrite <- fmap_without_main.
    pose proof (rg_dup _ _ H) as N. cbn [r_rings concat r_loose] in N.
    assert (N2 : S n ∉ loose). { apply NoDup_app in N as (_ & N & _). apply N. apply elem_of_app. left. by apply (proj2 (in_main _ _)). }
    rewrite (without_out (S n) loose) by done. apply NoDup_app in N as (N & _ & _). apply NoDup_app in N as (N & _ & _).
    rewrite (without_perm (S n) (main l)) at 2; [|done|by apply (proj2 (in_main _ _))]. rewrite <- !app_assoc. cbn.
    rewrite !app_assoc. symmetry. apply Permutation_middle.
  - destruct (loose_of L A X Y) as (loose & H & B). destruct (rng_unlink_loose _ _ _ H B) as [E _]. exists m. split; [done|]. split; [|done].
    rewrite filter_all by done. done.
Qed.
(** Link(&head_). *)
Lemma lay_front m l D n : Lay m l D -> is_Some (m !! S n) -> n ∉ l -> ~ deferred D n ->
  exists m', PLink (S n) 0 m = Ok m' /\ Lay m' (n :: l) D /\ same_dom m m'.
Proof.
  intros L A X Y. destruct (loose_of L A X Y) as (loose & H & B).
  assert (O : on_list 0 (Rings (main l :: defs D) loose)) by (unfold on_list; cbn; left).
  destruct (rng_link _ _ _ _ H B O) as (m' & E & R). exists m'. split; [done|]. cbn [rstep r_rings r_loose] in R. rewrite fmap_cons in R.
  pose proof (rg_dup _ _ H) as N. cbn [r_rings concat r_loose] in N.
  assert (Z0 : 0 ∉ concat (defs D)). { apply NoDup_app in N as (N & _ & _). apply NoDup_app in N as (_ & N & _). apply N. left. }
  assert (Z1 : 0 ∉ S <$> l) by (intros Z1; by apply elem_of_list_fmap in Z1 as (? & ? & _)).
  rewrite (@map_out (insert_after 0 (S n)) 0) in R by (by intros; rewrite ?insert_after_out).
  assert (Ei : insert_after 0 (S n) (main l) = main (n :: l)).
  { unfold main. rewrite fmap_cons. apply (insert_after_in 0 (S n) [] (S <$> l)); [by intros ?%elem_of_nil|done]. }
  rewrite Ei in R.
  split; [by exists (without (S n) loose)|]. eapply rng_same_dom; [exact H|exact R|]. cbn [r_rings concat r_loose]. unfold main.
  rewrite (@without_perm (S n) loose) at 2; [|by apply NoDup_app in N as (_ & _ & N)|done]. rewrite fmap_cons. cbn.
  apply perm_skip. apply Permutation_middle.
Qed.
(** The first deferred element of a key. *)
Lemma lay_defer_first m l D n k : Lay m l D -> is_Some (m !! S n) -> n ∉ l -> ~ deferred D n -> D !! k = None ->
  exists m', PSelf (S n) m = Ok m' /\ Lay m' l (<[k := [n]]> D) /\ same_dom m m'.
Proof.
  intros L A X Y E. destruct (loose_of L A X Y) as (loose & H & B). destruct (rng_self _ _ _ H B) as (m' & Em & R). exists m'. split; [done|].
  cbn [rstep r_rings r_loose] in R. pose proof (rg_dup _ _ H) as N. cbn [r_rings concat r_loose] in N. split.
  - apply lay_of_ring with (without (S n) loose). by rewrite defs_fresh.
  - eapply rng_same_dom; [exact H|exact R|]. cbn [r_rings concat r_loose]. rewrite (@without_perm (S n) loose) at 2; [|by apply NoDup_app in N as (_ & _ & N)|done].
    rewrite <- Permutation_middle. done.
Qed.
(** A further one is linked after the head of the key's ring. *)
Lemma lay_defer_more m l D n k h t : Lay m l D -> is_Some (m !! S n) -> n ∉ l -> ~ deferred D n -> D !! k = Some (h :: t) ->
  exists m', PLink (S n) (S h) m = Ok m' /\ Lay m' l (<[k := h :: n :: t]> D) /\ same_dom m m'.
Proof.
  intros L A X Y E. destruct (loose_of L A X Y) as (loose & H & B).
  assert (O : on_list (S h) (Rings (main l :: defs D) loose)).
  { unfold on_list. cbn [r_rings concat]. apply elem_of_app. right. apply in_defs. exists k, (h :: t). split; [done|left]. }
  assert (H2 : Rng m (Rings ((S <$> h :: t) :: main l :: defs (delete k D)) loose)).
  { eapply rng_perm; [|done|exact H]. rewrite (defs_split E). apply Permutation_swap. }
  assert (O2 : on_list (S h) (Rings ((S <$> h :: t) :: main l :: defs (delete k D)) loose)) by (unfold on_list; cbn; left).
  destruct (rng_link _ _ _ _ H2 B O2) as (m' & Em & R). exists m'. split; [done|]. cbn [rstep r_rings r_loose] in R. rewrite !fmap_cons in R.
  pose proof (rg_dup _ _ H2) as N. cbn [r_rings concat r_loose] in N. rewrite fmap_cons in N. cbn [app] in N. 
  pose proof N as N'. apply NoDup_cons in N as [N1 N2]. rewrite !elem_of_app in N1.
  rewrite (@insert_after_out (S h) (S n) (main l)) in R by tauto.
  rewrite (@map_out (insert_after (S h) (S n)) (S h) (defs (delete k D))) in R by (by intros; rewrite ?insert_after_out || tauto).
  assert (Ei : insert_after (S h) (S n) (S h :: (S <$> t)) = S h :: S n :: (S <$> t)).
  { apply (insert_after_in (S h) (S n) [] (S <$> t)); [by intros ?%elem_of_nil|tauto]. }
  rewrite Ei in R.
  split.
  - apply lay_of_ring with (without (S n) loose). rewrite !fmap_cons. done.
  - eapply rng_same_dom; [exact H2|exact R|]. cbn [r_rings concat r_loose]. rewrite (@without_perm (S n) loose) at 2; [| |done].
    + rewrite fmap_cons. cbn. apply perm_skip. apply Permutation_middle.
    + rewrite app_assoc in N2. apply NoDup_app in N2 as (_ & _ & N2). done.
Qed.
(** Unlink of a deferred element: the rest of its ring keeps its cyclic order. *)
Lemma lay_undefer m l D n k a b : Lay m l D -> D !! k = Some (a ++ n :: b) ->
  exists m', PUnlink (S n) m = Ok m' /\ (a ++ b = [] -> Lay m' l (delete k D)) /\ (forall t1 t2, a ++ b = t1 ++ t2 -> Lay m' l (<[k := t2 ++ t1]> D)) /\ same_dom m m'.
Proof.
  intros L E. destruct (lay_ring L E) as [loose H].
  assert (O : on_list (S n) (Rings ((S <$> a ++ n :: b) :: main l :: defs (delete k D)) loose)).
  { unfold on_list. cbn [r_rings concat]. apply elem_of_app. left. apply elem_of_list_fmap_1. apply elem_of_app. right. left. }
  destruct (rng_unlink _ _ _ H O) as (m' & Em & R). exists m'. split; [done|]. cbn [rstep r_rings r_loose] in R. rewrite !fmap_cons in R.
  pose proof (rg_dup _ _ H) as N. cbn [r_rings concat r_loose] in N.
  apply NoDup_app in N as (N & N3 & N4). apply NoDup_app in N as (N & N5 & _).
  assert (I : S n ∈ S <$> a ++ n :: b). { apply elem_of_list_fmap_1. apply elem_of_app. right. left. }
  assert (W1 : S n ∉ main l). { intros X. apply (N5 _ I). apply elem_of_app. by left. }
  assert (W2 : S n ∉ concat (defs (delete k D))). { intros X. apply (N5 _ I). apply elem_of_app. by right. }
  assert (W3 : S n ∉ loose). { apply N3. apply elem_of_app. by left. }
  rewrite (without_out (S n) (main l)) in R by done. rewrite (@map_without (S n)) in R by done. rewrite (without_out (S n) loose) in R by done.
  assert (N6 : n ∉ a /\ n ∉ b).
  { apply NoDup_fmap_1 in N. apply NoDup_app in N as (_ & Na & Nb). apply NoDup_cons in Nb as [Nb _]. split; [|done]. intros X. apply (Na n X). left. }
  assert (Ew : without (S n) (S <$> a ++ n :: b) = S <$> a ++ b).
  { rewrite fmap_without. f_equal. rewrite filter_app, filter_cons, decide_False by (by intros X; apply X). rewrite !filter_all by tauto. done. }
  rewrite Ew in R. split_and!.
  - intros Z0. rewrite Z0 in R. apply rng_nil in R. eexists. exact R.
  - intros t1 t2 Et. eapply lay_of_ring. rewrite fmap_app. apply rng_rot. rewrite <- fmap_app, <- Et. exact R.
  - eapply rng_same_dom; [exact H|exact R|]. cbn [r_rings concat r_loose]. rewrite <- Ew. rewrite (@without_perm (S n) (S <$> a ++ n :: b)) at 2; [|done|done].
    cbn. rewrite <- Permutation_middle. done.
Qed.
(** new and delete. *)
Lemma lay_new m l D n : Lay m l D -> m !! S n = None -> Lay (PNew (S n) m) l D.
Proof.
  intros [loose H] E. assert (X : ~ (S n ∈ concat (main l :: defs D) ++ loose)).
  { intros X. apply (rg_dom _ _ H) in X. rewrite E in X. by destruct X. }
  exists (S n :: loose). apply (rng_new m (Rings (main l :: defs D) loose) (S n)); [done| |].
  - intros Y. apply X. apply elem_of_app. by left.
  - intros Y. apply X. apply elem_of_app. by right.
Qed.
Lemma lay_free m l D n : Lay m l D -> is_Some (m !! S n) -> n ∉ l -> ~ deferred D n ->
  PFree (S n) m = Ok (delete (S n) m) /\ Lay (delete (S n) m) l D.
Proof.
  intros L A X Y. destruct (loose_of L A X Y) as (loose & H & B). destruct (rng_free _ _ _ H B) as (m' & E & R).
  unfold PFree, rd in *. destruct A as [nd A]. rewrite A in *. cbn in *. injection E as <-. split; [done|]. by eexists.
Qed.

(** ** Reading the pointers *)
Lemma chain_pair x l u a b v : x :: l = u ++ a :: b :: v -> (a, b) ∈ chain x l.
Proof.
  revert x u. induction l as [|y l IH]; intros x u E.
  - destruct u as [|? [|? ?]]; discriminate E.
  - destruct u as [|z u]; cbn in E.
    + injection E as -> -> ->. left.
    + injection E as -> E. cbn. right. by eapply IH.
Qed.
Lemma ring_pair m R loose x r u a b v : Rng m (Rings R loose) -> (x :: r) ∈ R -> (x :: r) ++ [x] = u ++ a :: b :: v -> joined m (a, b).
Proof.
  intros H Hr E. pose proof (rg_join _ _ H _ Hr) as J. rewrite Forall_forall in J. apply J. cbn [around]. eapply chain_pair. exact E.
Qed.
Definition ptr (o : option nat) : nat := match o with Some n => S n | None => 0 end.
Lemma joined_next m a b : joined m (a, b) -> exists nd, rd a m = Ok nd /\ n_next nd = Some b.
Proof. intros [H _]. apply nx_some in H as (nd & E & H). exists nd. unfold rd. cbn in E. by rewrite E. Qed.
Lemma joined_prev m a b : joined m (a, b) -> exists nd, rd b m = Ok nd /\ n_prev nd = Some a.
Proof. intros [_ H]. apply pv_some in H as (nd & E & H). exists nd. unfold rd. cbn in E. by rewrite E. Qed.
Lemma lay_pair m l D u a b v : Lay m l D -> main l ++ [0] = u ++ a :: b :: v -> joined m (a, b).
Proof. intros [loose H] E. eapply ring_pair; [exact H|left|exact E]. Qed.
Lemma lay_pair_def m l D k x t u a b v : Lay m l D -> D !! k = Some (x :: t) -> (S <$> (x :: t) ++ [x]) = u ++ a :: b :: v -> joined m (a, b).
Proof.
  intros L E Ep. destruct (lay_ring L E) as [loose H]. eapply ring_pair; [exact H| |].
  - rewrite fmap_cons. left.
  - rewrite fmap_app in Ep. exact Ep.
Qed.
