(** The pointer-level cache does what the cache of Lru.v does (proof-internal vocabulary). *)
From Verif Require Import Base Proto Lru LruSim LruOps LinkedList LinkedListProofs LinkLay PLru.
From stdpp Require Import gmap list.
Local Open Scope Z_scope.
Set Implicit Arguments.
Unset Strict Implicit.

Section proofs.
Context {V U : Type} `{!EqDecision V}.
Variable del : string -> V -> world (V:=V) (U:=U) -> outcome (world (V:=V) (U:=U)).
Variable f : string -> V -> pworld (V:=V) (U:=U) -> outcome (pworld (V:=V) (U:=U)).
Variable clk : nat -> Z.
Variable ord : hash_order.
Implicit Types (p : plru V) (c : lru V) (e : elem V) (u : U) (l : list nat) (D : gmap string (list nat)) (T : gmap string nat).

(** The cache of Lru.v with the same fields and the given lists. *)
Definition shape l D p : lru V :=
  Lru (p_heap p) (p_next p) (p_table p) D l (p_units p) (p_max p) (p_pinned p) (p_idle p) (p_lru p) (p_tick p).
(** The pointers of [p] are those lists; the entries of [T] are elements that can be removed. *)
Record Wf T p l D : Prop := {
  wf_lay : Lay (p_links p) l D;
  wf_dom : forall n, is_Some (p_links p !! S n) <-> is_Some (p_heap p !! n);
  wf_heads : forall k, p_defer p !! k = D !! k ≫= head;
  wf_nonnil : forall k, D !! k <> Some [];
  wf_keys : forall k t n, D !! k = Some t -> n ∈ t -> exists e, p_heap p !! n = Some e /\ e_key e = k;
  wf_tab : forall k n, T !! k = Some n -> exists e, p_heap p !! n = Some e /\ e_key e = k /\ ~ deferred D n;
  wf_fresh : forall n, is_Some (p_heap p !! n) -> (n < p_next p)%nat }.

(** A simulation of a call, at the level of whole caches. *)
Definition Ok_ p c : Prop := exists l D, c = shape l D p /\ Wf (p_table p) p l D.

(** An element that is in none of the cache's structures: the one whose deleter is being called. *)
Definition stray (n : nat) c : Prop := n ∉ l_list c /\ ~ deferred (l_defer c) n /\ (forall k, l_table c !! k <> Some n) /\ (n < l_next_id c)%nat.
(** The deleter of the pointer-level cache does what the other one does, and that one lets strays be. *)
Record faithful : Prop := {
  fa_sim : forall k v p c u c' u', Ok_ p c -> del k v (c, u) = Ok (c', u') -> exists p', f k v (p, u) = Ok (p', u') /\ Ok_ p' c';
  fa_stray : forall k v c u c' u' n, del k v (c, u) = Ok (c', u') -> stray n c -> stray n c' }.
(** The deleters leave the cache alone. *)
Definition silent : Prop := forall k v c u c' u', del k v (c, u) = Ok (c', u') -> c' = c /\ forall p, f k v (p, u) = Ok (p, u').
Lemma silent_faithful : silent -> faithful.
Proof.
  intros S0. split.
  - intros k v p c u c' u' R H. apply S0 in H as [-> H]. exists p. by rewrite H.
  - intros k v c u c' u' n H. by apply S0 in H as [-> _].
Qed.

Lemma wf_same T p q l D : p_links q = p_links p -> p_heap q = p_heap p -> p_defer q = p_defer p -> p_next q = p_next p -> Wf T p l D -> Wf T q l D.
Proof. intros E1 E2 E3 E4 [H1 H2 H3 H4 H5 H6 H7]. split; rewrite ?E1, ?E2, ?E3, ?E4; done. Qed.
Lemma wf_sub T T' p l D : (forall k n, T' !! k = Some n -> T !! k = Some n) -> Wf T p l D -> Wf T' p l D.
Proof. intros E [H1 H2 H3 H4 H5 H6 H7]. split; try done. intros k n H. by apply H6, E. Qed.
Lemma wf_delete T k p l D : Wf T p l D -> Wf (delete k T) p l D.
Proof. apply wf_sub. intros k' n H. by apply lookup_delete_Some in H as [_ H]. Qed.
Lemma wf_other T k n p l D : Wf T p l D -> T !! k = Some n -> forall k', delete k T !! k' <> Some n.
Proof.
  intros W H k' H'. apply lookup_delete_Some in H' as [N H']. destruct (wf_tab W H) as (e & E & K & _). destruct (wf_tab W H') as (e' & E' & K' & _).
  rewrite E in E'. injection E' as <-. by rewrite K in K'.
Qed.
Lemma wf_store T n e e' p l D : Wf T p l D -> p_heap p !! n = Some e -> e_key e' = e_key e -> Wf T (pstore n e' p) l D.
Proof.
  intros [H1 H2 H3 H4 H5 H6 H7] E K. assert (S0 : forall x, is_Some (<[n := e']> (p_heap p) !! x) <-> is_Some (p_heap p !! x)).
  { intros x. destruct (decide (x = n)) as [->|N]; [rewrite lookup_insert, E; by split; eauto|by rewrite lookup_insert_ne]. }
  assert (K0 : forall x k, (exists e, p_heap p !! x = Some e /\ e_key e = k) -> exists e, <[n := e']> (p_heap p) !! x = Some e /\ e_key e = k).
  { intros x k (e0 & X & Y). destruct (decide (x = n)) as [->|N]; [|exists e0; by rewrite lookup_insert_ne].
    exists e'. rewrite lookup_insert. split; [done|]. rewrite E in X. injection X as <-. by rewrite K. }
  split; cbn [pstore pset_heap p_heap p_links p_defer p_next]; try done.
  - intros x. by rewrite S0.
  - intros k t x X Y. apply K0. by eapply H5.
  - intros k x X. destruct (H6 _ _ X) as (e0 & X1 & X2 & X3). destruct (K0 x k) as (e1 & Y1 & Y2); [by exists e0|]. by exists e1.
  - intros x X. apply H7. by apply S0.
Qed.
(** The pointers change but no element is made or freed. *)
Lemma wf_links T p m l l' D : Wf T p l D -> Lay m l' D -> same_dom (p_links p) m -> Wf T (pset_links m p) l' D.
Proof. intros [H1 H2 H3 H4 H5 H6 H7] L S0. split; cbn [pset_links p_heap p_links p_defer p_next]; try done. intros n. rewrite <- H2. apply S0. Qed.

Lemma on_links_ok g p m : g (p_links p) = Ok m -> on_links g p = Ok (pset_links m p).
Proof. intros E. unfold on_links. by rewrite E. Qed.

(** ** Reading the recency list *)
Lemma last_split (l : list nat) x : last l = Some x -> exists a, l = a ++ [x].
Proof. intros H. apply last_Some in H. done. Qed.
Lemma main_end l : exists b0, main l ++ [0%nat] = b0 ++ [ptr (last l); 0%nat].
Proof.
  destruct (last l) as [x|] eqn:E; cbn [ptr].
  - apply last_split in E as [a ->]. exists (main a). unfold main. rewrite fmap_app. cbn. by rewrite <- app_assoc.
  - apply last_None in E as ->. by exists [].
Qed.
Lemma tail_ptr T p l D : Wf T p l D -> prev_ptr 0 p = Ok (ptr (last l)).
Proof.
  intros W. destruct (main_end l) as [b0 E]. pose proof (lay_pair (wf_lay W) E) as J. destruct (joined_prev J) as (nd & R & N).
  unfold prev_ptr. rewrite R. cbn. by rewrite N.
Qed.
Lemma head_ptr T p l D : Wf T p l D -> next_ptr 0 p = Ok (ptr (head l)).
Proof.
  intros W. assert (E : exists v, main l ++ [0%nat] = [] ++ 0%nat :: ptr (head l) :: v).
  { destruct l as [|x l]; [by exists []|]. cbn. eexists. done. }
  destruct E as [v E]. pose proof (lay_pair (wf_lay W) E) as J. destruct (joined_next J) as (nd & R & N).
  unfold next_ptr. rewrite R. cbn. by rewrite N.
Qed.
Lemma prev_in_split o n l r : prev_in o n l = Ok r -> exists a b, l = a ++ n :: b /\ r = match last a with Some x => Some x | None => o end.
Proof.
  revert o. induction l as [|x l IH]; intros o H; cbn in H; [done|]. case_decide as N.
  - subst. injection H as <-. by exists [], l.
  - apply IH in H as (a & b & -> & ->). exists (x :: a), b. split; [done|]. destruct a as [|y a]; [done|].
    change (last (x :: y :: a)) with (last (y :: a)). destruct (last (y :: a)) eqn:E; [done|]. by apply last_None in E.
Qed.
Lemma prev_ptr_ok T p l D n r : Wf T p l D -> prev_in None n l = Ok r -> prev_ptr (S n) p = Ok (ptr r).
Proof.
  intros W H. apply prev_in_split in H as (a & b & -> & ->).
  assert (E : exists b0 v, main (a ++ n :: b) ++ [0%nat] = b0 ++ ptr (match last a with Some x => Some x | None => None end) :: S n :: v).
  { unfold main. rewrite fmap_app, fmap_cons. destruct (last a) as [x|] eqn:El; cbn [ptr].
    - apply last_split in El as [a' ->]. rewrite fmap_app. exists (0%nat :: (S <$> a')). cbn. rewrite <- !app_assoc. cbn. by eexists.
    - apply last_None in El as ->. exists []. cbn. by eexists. }
  destruct E as (b0 & v & E). pose proof (lay_pair (wf_lay W) E) as J. destruct (joined_prev J) as (nd & R & N).
  unfold prev_ptr. rewrite R. cbn. by rewrite N.
Qed.
Lemma next_in_split n l r : next_in n l = Ok r -> exists a b, l = a ++ n :: b /\ r = head b.
Proof.
  induction l as [|x l IH]; intros H; cbn in H; [done|]. case_decide as N.
  - subst. injection H as <-. by exists [], l.
  - apply IH in H as (a & b & -> & ->). by exists (x :: a), b.
Qed.
Lemma next_ptr_ok T p l D n r : Wf T p l D -> next_in n l = Ok r -> next_ptr (S n) p = Ok (ptr r).
Proof.
  intros W H. apply next_in_split in H as (a & b & -> & ->).
  assert (E : exists b0 v, main (a ++ n :: b) ++ [0%nat] = b0 ++ S n :: ptr (head b) :: v).
  { unfold main. rewrite fmap_app, fmap_cons. exists (0%nat :: (S <$> a)). destruct b as [|y b]; cbn; rewrite <- app_assoc; cbn; by eexists. }
  destruct E as (b0 & v & E). pose proof (lay_pair (wf_lay W) E) as J. destruct (joined_next J) as (nd & R & N).
  unfold next_ptr. rewrite R. cbn. by rewrite N.
Qed.

(** ** Discard and Remove *)
Lemma wf_free T p l D n : Wf T p l D -> is_Some (p_heap p !! n) -> n ∉ l -> ~ deferred D n -> (forall k, T !! k <> Some n) ->
  PFree (S n) (p_links p) = Ok (delete (S n) (p_links p)) /\
  Wf T (pset_heap (delete n (p_heap p)) (pset_links (delete (S n) (p_links p)) p)) l D.
Proof.
  intros W A X Y Z0. pose proof (proj2 (wf_dom W n) A) as B. destruct (lay_free (wf_lay W) B X Y) as [E L]. split; [done|].
  destruct W as [H1 H2 H3 H4 H5 H6 H7].
  split; cbn [pset_links pset_heap p_heap p_links p_defer p_next]; try done.
  - intros x. destruct (decide (x = n)) as [->|N]; [rewrite !lookup_delete; split; by intros [? ?]|]. rewrite !lookup_delete_ne by congruence. apply H2.
  - intros k t x Hk Hx. rewrite lookup_delete_ne by (intros ->; apply Y; by exists k, t). by eapply H5.
  - intros k x Hk. rewrite lookup_delete_ne by (intros ->; by apply (Z0 k)). by apply H6.
  - intros x [e Hx]. apply lookup_delete_Some in Hx as [_ Hx]. apply H7. by exists e.
Qed.
Lemma discard_silent T p l D n u c' u' : silent -> Wf T p l D -> n ∉ l -> ~ deferred D n -> (forall k, T !! k <> Some n) ->
  Discard del n (shape l D p, u) = Ok (c', u') ->
  exists p', PDiscard f n (p, u) = Ok (p', u') /\ c' = shape l D p' /\ Wf T p' l D /\ p_table p' = p_table p.
Proof.
  intros S0 W X Y Z0 H. unfold Discard, load in H. cbn [fst snd shape l_heap] in H. unfold PDiscard, pload. cbn [fst snd].
  destruct (p_heap p !! n) as [e|] eqn:E; cbn [obind] in *; [|discriminate].
  destruct (assert_ (e_pin e =? 0)) as [[]| | |] eqn:Ea; cbn [obind] in *; try discriminate.
  match type of H with context [del ?k ?v ?w] => destruct (del k v w) as [[c1 u1]| | |] eqn:Ed end; cbn [obind] in H; try discriminate.
  apply S0 in Ed as [-> Ed]. rewrite Ed. cbn [obind fst snd].
  cbn [fst snd set_units l_heap shape] in H. rewrite E in H. injection H as <- <-.
  destruct (@wf_free T p l D n W) as [Ef Wn]; [by eexists|done..|].
  rewrite (@on_links_ok _ _ (delete (S n) (p_links p))) by exact Ef. cbn [obind].
  eexists. split_and!; [done|done| |done]. eapply wf_same; [..|exact Wn]; done.
Qed.
Lemma discard_ok p l D n u c' u' : faithful -> Wf (p_table p) p l D -> n ∉ l -> ~ deferred D n -> (forall k, p_table p !! k <> Some n) ->
  Discard del n (shape l D p, u) = Ok (c', u') -> exists p', PDiscard f n (p, u) = Ok (p', u') /\ Ok_ p' c'.
Proof.
  intros F W X Y Z0 H. unfold Discard, load in H. cbn [fst snd shape l_heap] in H. unfold PDiscard, pload. cbn [fst snd].
  destruct (p_heap p !! n) as [e|] eqn:E; cbn [obind] in *; [|discriminate].
  destruct (assert_ (e_pin e =? 0)) as [[]| | |] eqn:Ea; cbn [obind] in *; try discriminate.
  match type of H with context [del ?k ?v ?w] => destruct (del k v w) as [[c1 u1]| | |] eqn:Ed end; cbn [obind] in H; try discriminate.
  set (p0 := pset_units (p_units p - e_units e) p) in *. change (set_units _ _) with (shape l D p0) in Ed.
  assert (R0 : Ok_ p0 (shape l D p0)) by (exists l, D; split; [done|]; eapply wf_same; [..|exact W]; done).
  assert (S0 : stray n (shape l D p0)) by (split_and!; [done|done|done|]; apply (wf_fresh W); by eexists).
  pose proof (fa_stray F Ed S0) as S1. destruct (fa_sim F R0 Ed) as (p1 & -> & l1 & D1 & -> & W1). cbn [obind fst snd].
  cbn [fst snd l_heap shape] in H. destruct (p_heap p1 !! n) as [e1|] eqn:E1; [|discriminate]. injection H as <- <-.
  destruct S1 as (X1 & Y1 & Z1 & _). destruct (@wf_free (p_table p1) p1 l1 D1 n W1) as [Ef Wn]; [by eexists|done..|].
  rewrite (@on_links_ok _ _ (delete (S n) (p_links p1))) by exact Ef. cbn [obind].
  eexists. split; [done|]. by exists l1, D1.
Qed.

Lemma not_filtered n l : n ∉ filter (fun x => x <> n) l.
Proof. intros H. apply elem_of_list_filter in H as [H _]. done. Qed.

Lemma remove_elem_gen (Q : plru V -> lru V -> Prop) T p l D n e u c' u' :
  (forall p' l' D', Wf T p' l' D' -> p_table p' = p_table p -> Q p' (shape l' D' p')) ->
  (forall m l1, Wf T (pset_links m p) l1 D -> n ∉ l1 -> Discard del n (shape l1 D (pset_links m p), u) = Ok (c', u') ->
    exists p', PDiscard f n (pset_links m p, u) = Ok (p', u') /\ Q p' c') ->
  Wf T p l D -> p_heap p !! n = Some e -> ~ deferred D n -> (forall k, T !! k <> Some n) ->
  RemoveElem del n (shape l D p, u) = Ok (c', u') -> exists p', PRemoveElem f n (p, u) = Ok (p', u') /\ Q p' c'.
Proof.
  intros Q1 Q2. intros W E Y Z0 H. unfold RemoveElem, load in H. cbn [fst snd shape l_heap] in H. rewrite E in H. cbn [obind] in H.
  assert (A : is_Some (p_links p !! S n)) by (apply (wf_dom W); by eexists).
  destruct (lay_unlink (wf_lay W) A Y) as (m & Em & L & S0). pose proof (wf_links W L S0) as W1.
  unfold PRemoveElem. cbn [fst snd]. rewrite (on_links_ok Em). cbn [obind]. unfold pload. cbn [pset_links p_heap]. rewrite E. cbn [obind].
  set (l1 := filter (fun x => x <> n) l) in *.
  destruct (0 <? e_pin e) eqn:Ep.
  - cbn [set_pinned Unlink set_list l_defer l_pinned shape l_list fst snd] in H. fold l1 in H.
    cbn [pset_links pset_pinned p_defer p_pinned]. rewrite (wf_heads W).
    assert (A1 : is_Some (m !! S n)) by (by apply S0).
    destruct (D !! e_key e) as [[|h t]|] eqn:Ed; cbn [mbind option_bind head]; [discriminate| |].
    + injection H as <- <-. destruct (lay_defer_more (n := n) L A1 (@not_filtered n l) Y Ed) as (m2 & Em2 & L2 & S2).
      rewrite (@on_links_ok _ _ m2) by exact Em2. cbn [obind].
      eexists. split; [done|]. match goal with |- Q ?q ?c => change c with (shape l1 (<[e_key e := h :: n :: t]> D) q) end. apply Q1; [|done].
      destruct W1 as [H1 H2 H3 H4 H5 H6 H7]. split; cbn [pset_links pset_pinned p_heap p_links p_defer p_next] in *; try done.
      * intros x. rewrite <- H2. apply S2.
      * intros k. rewrite H3. destruct (decide (k = e_key e)) as [->|N]; [by rewrite lookup_insert, Ed|by rewrite lookup_insert_ne].
      * intros k. destruct (decide (k = e_key e)) as [->|N]; [by rewrite lookup_insert|rewrite lookup_insert_ne by done; apply H4].
      * intros k t0 x Hk Hx. destruct (decide (k = e_key e)) as [->|N].
        -- rewrite lookup_insert in Hk. injection Hk as <-. apply elem_of_cons in Hx as [->|Hx]; [by eapply H5; [exact Ed|left]|].
           apply elem_of_cons in Hx as [->|Hx]; [by exists e|]. eapply H5; [exact Ed|by right].
        -- rewrite lookup_insert_ne in Hk by done. by eapply H5.
      * intros k x Hk. destruct (H6 _ _ Hk) as (e0 & X1 & X2 & X3). exists e0. split_and!; [done..|]. rewrite deferred_insert.
        intros [Hx|Hx]; [|by apply deferred_delete in Hx]. apply X3.
        apply elem_of_cons in Hx as [->|Hx]; [exists (e_key e), (h :: t); split; [done|left]|].
        apply elem_of_cons in Hx as [->|Hx]; [by destruct (Z0 k)|]. exists (e_key e), (h :: t). split; [done|by right].
    + injection H as <- <-. destruct (lay_defer_first (n := n) L A1 (@not_filtered n l) Y Ed) as (m2 & Em2 & L2 & S2).
      rewrite (@on_links_ok _ _ m2) by exact Em2. cbn [obind].
      eexists. split; [done|]. match goal with |- Q ?q ?c => change c with (shape l1 (<[e_key e := [n]]> D) q) end. apply Q1; [|done].
      destruct W1 as [H1 H2 H3 H4 H5 H6 H7]. split; cbn [pset_links pset_pinned pset_defer p_heap p_links p_defer p_next] in *; try done.
      * intros x. rewrite <- H2. apply S2.
      * intros k. destruct (decide (k = e_key e)) as [->|N]; [by rewrite !lookup_insert|by rewrite !lookup_insert_ne].
      * intros k. destruct (decide (k = e_key e)) as [->|N]; [by rewrite lookup_insert|rewrite lookup_insert_ne by done; apply H4].
      * intros k t0 x Hk Hx. destruct (decide (k = e_key e)) as [->|N].
        -- rewrite lookup_insert in Hk. injection Hk as <-. apply elem_of_list_singleton in Hx as ->. by exists e.
        -- rewrite lookup_insert_ne in Hk by done. by eapply H5.
      * intros k x Hk. destruct (H6 _ _ Hk) as (e0 & X1 & X2 & X3). exists e0. split_and!; [done..|]. rewrite deferred_insert.
        intros [Hx|Hx]; [|by apply deferred_delete in Hx]. apply elem_of_list_singleton in Hx as ->. by destruct (Z0 k).
  - change (Unlink n (shape l D p)) with (shape l1 D (pset_links m p)) in H.
    by apply (Q2 m l1 W1 (@not_filtered n l)).
Qed.
Lemma remove_elem_silent T p l D n e u c' u' : silent -> Wf T p l D -> p_heap p !! n = Some e -> ~ deferred D n -> (forall k, T !! k <> Some n) ->
  RemoveElem del n (shape l D p, u) = Ok (c', u') ->
  exists p' l' D', PRemoveElem f n (p, u) = Ok (p', u') /\ c' = shape l' D' p' /\ Wf T p' l' D' /\ p_table p' = p_table p.
Proof.
  intros S0 W E Y Z0 H.
  destruct (@remove_elem_gen (fun p' c' => exists l' D', c' = shape l' D' p' /\ Wf T p' l' D' /\ p_table p' = p_table p) T p l D n e u c' u') as (p' & E1 & l' & D' & E2); try done.
  - intros p1 l1 D1 W1 Et. by exists l1, D1.
  - intros m l1 W1 X1 H1. apply (discard_silent S0 W1 X1 Y Z0) in H1 as (p1 & E1 & E2 & W2 & Et). exists p1. split; [done|]. by exists l1, D.
  - by exists p', l', D'.
Qed.
Lemma remove_elem_ok p l D n e u c' u' : faithful -> Wf (p_table p) p l D -> p_heap p !! n = Some e -> ~ deferred D n -> (forall k, p_table p !! k <> Some n) ->
  RemoveElem del n (shape l D p, u) = Ok (c', u') -> exists p', PRemoveElem f n (p, u) = Ok (p', u') /\ Ok_ p' c'.
Proof.
  intros F W E Y Z0 H. eapply (@remove_elem_gen Ok_ (p_table p) p l D n e u c' u'); try done.
  - intros p1 l1 D1 W1 Et. exists l1, D1. by rewrite Et.
  - intros m l1 W1 X1 H1. by apply (discard_ok (p := pset_links m p) F W1 X1 Y Z0).
Qed.
Hypothesis F : faithful.

Lemma remove_ok k p c u c' u' : Ok_ p c -> Remove del k (c, u) = Ok (c', u') -> exists p', PRemove f k (p, u) = Ok (p', u') /\ Ok_ p' c'.
Proof.
  intros (l & D & -> & W) H. unfold Remove in H. unfold PRemove. cbn [fst snd shape l_table] in *.
  destruct (p_table p !! k) as [n|] eqn:E.
  - destruct (wf_tab W E) as (e & Ee & K & Y). pose proof (wf_other W E) as Z0.
    change (set_table _ _) with (shape l D (pset_table (delete k (p_table p)) p)) in H.
    assert (W1 : Wf (delete k (p_table p)) (pset_table (delete k (p_table p)) p) l D) by (eapply wf_same; [..|apply wf_delete, W]; done).
    by apply (remove_elem_ok (p := pset_table (delete k (p_table p)) p) F W1 Ee Y Z0).
  - injection H as <- <-. exists p. split; [done|]. by exists l, D.
Qed.
Lemma ok_same p q l D : Wf (p_table p) p l D -> p_links q = p_links p -> p_heap q = p_heap p -> p_defer q = p_defer p -> p_next q = p_next p -> p_table q = p_table p ->
  Ok_ q (shape l D q).
Proof. intros W E1 E2 E3 E4 E5. exists l, D. split; [done|]. rewrite E5. by eapply wf_same. Qed.

(** ** The walks *)
Lemma gc_ok n : forall o p c u c' u', Ok_ p c -> gc del n o (c, u) = Ok (c', u') -> exists p', p_gc f n (ptr o) (p, u) = Ok (p', u') /\ Ok_ p' c'.
Proof.
  induction n as [|n IH]; intros o p c u c' u' R H; [discriminate|]. cbn [gc p_gc fst snd] in *. destruct R as (l & D & -> & W).
  change (Overfull (shape l D p)) with (POverfull p) in H. destruct (POverfull p).
  2: { injection H as <- <-. exists p. split; [done|]. by exists l, D. }
  destruct o as [i|]; cbn [ptr] in *.
  2: { injection H as <- <-. exists p. split; [done|]. by exists l, D. }
  unfold load in H. unfold pload. cbn [shape l_heap] in H. 
  destruct (p_heap p !! i) as [e|] eqn:E; [|discriminate]. cbn [obind] in H.
  unfold prev_of in H. cbn [shape l_list] in H. destruct (prev_in None i l) as [r| | |] eqn:Er; cbn [obind] in H; try discriminate.
  rewrite (prev_ptr_ok W Er). cbn [obind].
  destruct (e_pin e =? 0); cbn [obind] in *.
  2: { eapply IH; [|exact H]. by exists l, D. }
  change (l_table (shape l D p)) with (p_table p) in H. case_bool_decide as Et; [|discriminate]. cbn [assert_ obind] in *.
  destruct (wf_tab W Et) as (e0 & E0 & _ & Y). rewrite E in E0. injection E0 as <-. pose proof (wf_other W Et) as Z0.
  assert (A : is_Some (p_links p !! S i)) by (apply (wf_dom W); by eexists).
  destruct (lay_unlink (wf_lay W) A Y) as (m & Em & L & S0). pose proof (wf_links W L S0) as W1.
  rewrite (@on_links_ok _ _ m) by exact Em. cbn [obind].
  set (l1 := filter (fun x => x <> i) l) in *. set (p1 := pset_links m (pset_table (delete (e_key e) (p_table p)) p)).
  change (Unlink _ _) with (shape l1 D p1) in H.
  destruct (Discard del i (shape l1 D p1, u)) as [[c2 u2]| | |] eqn:Ed; cbn [obind] in H; try discriminate.
  assert (W2 : Wf (delete (e_key e) (p_table p)) p1 l1 D) by (eapply wf_same; [..|apply wf_delete, W1]; done).
  apply (discard_ok (p := p1) F W2 (@not_filtered i l) Y Z0) in Ed as (p2 & Ep2 & R2). rewrite Ep2. cbn [obind]. by eapply IH.
Qed.
Lemma garbage_ok n p c u c' u' : Ok_ p c -> GarbageCollect del n (c, u) = Ok (c', u') -> exists p', PGarbageCollect f n (p, u) = Ok (p', u') /\ Ok_ p' c'.
Proof.
  intros R H. unfold GarbageCollect in H. unfold PGarbageCollect. pose proof R as (l & D & -> & W). cbn [fst snd] in *.
  rewrite (tail_ptr W). cbn [obind]. by eapply gc_ok.
Qed.
Lemma idle_ok n th : forall la o p c u c' u', Ok_ p c -> idle_loop del n th la o (c, u) = Ok (c', u') -> exists p', p_idle_loop f n th la (ptr o) (p, u) = Ok (p', u') /\ Ok_ p' c'.
Proof.
  induction n as [|n IH]; intros la o p c u c' u' R H; [discriminate|]. cbn [idle_loop p_idle_loop fst snd] in *.
  destruct o as [i|]; cbn [ptr] in *.
  2: { injection H as <- <-. by exists p. }
  pose proof R as (l & D & Ec & W). unfold load in H. unfold pload. rewrite Ec in H. cbn [shape l_heap] in H.
  destruct (p_heap p !! i) as [e|] eqn:E; [|discriminate]. cbn [obind] in *.
  destruct (e_last e <? th). 2: { injection H as <- <-. exists p. split; [done|]. by exists l, D. }
  destruct (assert_ (la <=? e_last e + 1)) as [[]| | |]; cbn [obind] in *; try discriminate.
  unfold prev_of in H. cbn [shape l_list] in H. destruct (prev_in None i l) as [r| | |] eqn:Er; cbn [obind] in H; try discriminate.
  rewrite (prev_ptr_ok W Er). cbn [obind]. change (l_lru (shape l D p)) with (p_lru p) in H.
  destruct (assert_ ((e_pin e =? 0) || negb (p_lru p))) as [[]| | |]; cbn [obind] in *; try discriminate.
  destruct (Remove del (e_key e) (shape l D p, u)) as [[c2 u2]| | |] eqn:Ed; cbn [obind] in H; try discriminate.
  apply (@remove_ok _ p) in Ed as (p2 & Ep2 & R2); [|by exists l, D]. rewrite Ep2. cbn [obind]. by eapply IH.
Qed.
Lemma discard_idle_ok n i p c u c' u' : Ok_ p c -> DiscardIdle del clk n i (c, u) = Ok (c', u') -> exists p', PDiscardIdle f clk n i (p, u) = Ok (p', u') /\ Ok_ p' c'.
Proof.
  intros R H. unfold DiscardIdle in H. unfold PDiscardIdle. destruct (i <? 0).
  { injection H as <- <-. by exists p. }
  pose proof R as (l & D & -> & W). cbn [fst snd] in *. rewrite (tail_ptr W). cbn [obind].
  eapply idle_ok; [|exact H]. exists l, D. split; [done|]. by eapply wf_same; [..|exact W].
Qed.
Lemma expired_ok n p c u c' u' : Ok_ p c -> RemoveExpiredEntries del clk n (c, u) = Ok (c', u') -> exists p', PRemoveExpired f clk n (p, u) = Ok (p', u') /\ Ok_ p' c'.
Proof.
  intros R H. unfold RemoveExpiredEntries in H. unfold PRemoveExpired. cbn [fst snd] in *.
  assert (E : l_idle c = p_idle p) by (destruct R as (l & D & -> & _); done). rewrite E in H. destruct (0 <=? p_idle p); [by eapply discard_idle_ok|].
  injection H as <- <-. by exists p.
Qed.
Lemma set_max_ok n x p c u c' u' : Ok_ p c -> SetMaxSize del n x (c, u) = Ok (c', u') -> exists p', PSetMaxSize f n x (p, u) = Ok (p', u') /\ Ok_ p' c'.
Proof.
  intros R H. eapply garbage_ok; [|exact H]. destruct R as (l & D & -> & W). exact (ok_same (q := pset_max x p) W eq_refl eq_refl eq_refl eq_refl eq_refl).
Qed.
Lemma set_timeout_ok n t b p c u c' u' : Ok_ p c -> SetTimeout del clk n t b (c, u) = Ok (c', u') -> exists p', PSetTimeout f clk n t b (p, u) = Ok (p', u') /\ Ok_ p' c'.
Proof.
  intros (l & D & -> & W) H. unfold SetTimeout in H. unfold PSetTimeout. cbn [fst snd] in *. destruct t as [x|].
  - change (l_idle (shape l D p)) with (p_idle p) in H. change (l_lru (shape l D p)) with (p_lru p) in H.
    destruct ((0 <=? p_idle p) && negb (Bool.eqb b (p_lru p))); [discriminate|]. eapply discard_idle_ok; [|exact H]. exact (ok_same (q := pset_idle x (pset_lru b p)) W eq_refl eq_refl eq_refl eq_refl eq_refl).
  - injection H as <- <-. eexists. split; [done|]. exact (ok_same (q := pset_idle (-1) (pset_lru b p)) W eq_refl eq_refl eq_refl eq_refl eq_refl).
Qed.
Lemma unpinned_ok n : forall o p c u c' u', Ok_ p c -> unpinned_loop del n o (c, u) = Ok (c', u') -> exists p', p_unpinned_loop f n (ptr o) (p, u) = Ok (p', u') /\ Ok_ p' c'.
Proof.
  induction n as [|n IH]; intros o p c u c' u' R H; [discriminate|]. cbn [unpinned_loop p_unpinned_loop fst snd] in *.
  destruct o as [i|]; cbn [ptr] in *.
  2: { injection H as <- <-. by exists p. }
  pose proof R as (l & D & Ec & W). unfold load in H. unfold pload. rewrite Ec in H. cbn [shape l_heap] in H.
  destruct (p_heap p !! i) as [e|] eqn:E; [|discriminate]. cbn [obind] in *.
  change (l_list (shape l D p)) with l in H. destruct (next_in i l) as [r| | |] eqn:Er; cbn [obind] in H; try discriminate.
  rewrite (next_ptr_ok W Er). cbn [obind]. destruct (e_pin e =? 0).
  - destruct (Remove del (e_key e) (shape l D p, u)) as [[c2 u2]| | |] eqn:Ed; cbn [obind] in H; try discriminate.
    apply (@remove_ok _ p) in Ed as (p2 & Ep2 & R2); [|by exists l, D]. rewrite Ep2. cbn [obind]. eapply IH; [exact R2|exact H].
  - cbn [obind] in *. eapply IH; [|exact H]. by exists l, D.
Qed.
Lemma remove_unpinned_ok n p c u c' u' : Ok_ p c -> RemoveUnpinned del n (c, u) = Ok (c', u') -> exists p', PRemoveUnpinned f n (p, u) = Ok (p', u') /\ Ok_ p' c'.
Proof.
  intros R H. unfold RemoveUnpinned in H. unfold PRemoveUnpinned. pose proof R as (l & D & -> & W). cbn [fst snd] in *.
  rewrite (head_ptr W). cbn [obind]. by eapply unpinned_ok.
Qed.

(** ** Lookup *)
Lemma lookup_ok n b k p c u c' u' r : Ok_ p c -> LookupWithOptions del clk n b k (c, u) = Ok ((c', u'), r) -> exists p', PLookup f clk n b k (p, u) = Ok ((p', u'), r) /\ Ok_ p' c'.
Proof.
  intros R H. unfold LookupWithOptions in H. unfold PLookup.
  destruct (RemoveExpiredEntries del clk n (c, u)) as [[c1 u1]| | |] eqn:E1; cbn [obind] in H; try discriminate.
  apply (expired_ok R) in E1 as (p1 & Ep1 & l & D & -> & W). rewrite Ep1. cbn [obind fst snd shape l_table] in *. clear R Ep1 p c u.
  destruct (p_table p1 !! k) as [i|] eqn:Et. 2: { injection H as <- <- <-. exists p1. split; [done|]. by exists l, D. }
  unfold load in H. cbn [l_heap shape] in H. unfold pload. destruct (wf_tab W Et) as (e & Ee & K & Y). rewrite Ee in *. cbn [obind] in *.
  destruct (e_pin e =? 0) eqn:Ep; cbn [set_pinned l_lru l_pinned shape] in H; cbn [pset_pinned p_lru].
  - destruct (p_lru p1 && b) eqn:El.
    + assert (A : is_Some (p_links p1 !! S i)) by (apply (wf_dom W); by eexists).
      destruct (lay_unlink (wf_lay W) A Y) as (m & Em & L & S0). pose proof (wf_links W L S0) as W1.
      rewrite (@on_links_ok _ _ m) by exact Em. cbn [obind]. injection H as <- <- <-. eexists. split; [done|].
      exists (filter (fun x => x <> i) l), D. split; [done|]. eapply wf_store; [|exact Ee|done]. eapply wf_same; [..|exact W1]; done.
    + cbn [obind]. injection H as <- <- <-. eexists. split; [done|].
      exists l, D. split; [done|]. eapply wf_store; [|exact Ee|done]. eapply wf_same; [..|exact W]; done.
  - cbn [obind]. injection H as <- <- <-. eexists. split; [done|]. exists l, D. split; [done|]. eapply wf_store; [exact W|exact Ee|done].
Qed.

(** ** The rings of deferred elements *)
Lemma prev_elem_pair T p l D k x t a b b1 b2 : Wf T p l D -> D !! k = Some (x :: t) -> (x :: t) ++ [x] = b1 ++ a :: b :: b2 -> prev_elem b p = Ok a.
Proof.
  intros W E Ep. assert (J : joined (p_links p) (S a, S b)).
  { eapply lay_pair_def; [exact (wf_lay W)|exact E|]. rewrite Ep, fmap_app, !fmap_cons. done. }
  destruct (joined_prev J) as (nd & R & N). unfold prev_elem, prev_ptr. rewrite R. cbn. by rewrite N.
Qed.
Lemma prev_elem_head T p l D k x t : Wf T p l D -> D !! k = Some (x :: t) -> prev_elem x p = Ok (List.last t x).
Proof.
  intros W E. destruct (exists_last (l := x :: t)) as (b1 & y & Ey); [done|].
  assert (Ex : List.last t x = y).
  { destruct b1 as [|z b1]; injection Ey as <- ->; [done|]. by rewrite List.last_last. }
  rewrite Ex. eapply (@prev_elem_pair T p l D k x t y x b1 []); [done|done|]. rewrite Ey. by rewrite <- app_assoc.
Qed.
Lemma prev_elem_tail T p l D k x t t1 i t2 : Wf T p l D -> D !! k = Some (x :: t) -> t = t1 ++ i :: t2 -> prev_elem i p = Ok (List.last t1 x).
Proof.
  intros W E ->. destruct (exists_last (l := x :: t1)) as (b1 & y & Ey); [done|].
  assert (Ex : List.last t1 x = y).
  { destruct b1 as [|z b1]; injection Ey as <- ->; [done|]. by rewrite List.last_last. }
  rewrite Ex. eapply (@prev_elem_pair T p l D k x _ y i b1); [done|exact E|].
  change (x :: t1 ++ i :: t2) with ((x :: t1) ++ i :: t2). rewrite Ey, <- !app_assoc. done.
Qed.
Lemma ring_nodup T p l D k t : Wf T p l D -> D !! k = Some t -> NoDup t.
Proof.
  intros W E. destruct (lay_ring (wf_lay W) E) as [loose H]. pose proof (rg_dup _ _ H) as N. cbn [r_rings concat r_loose] in N.
  apply NoDup_app in N as (N & _ & _). apply NoDup_app in N as (N & _ & _). by apply NoDup_fmap_1 in N.
Qed.
Lemma ring_fuel T p l D k t : Wf T p l D -> D !! k = Some t -> (length t <= size (p_links p))%nat.
Proof.
  intros W E. rewrite <- (fmap_length S). apply ring_small.
  - apply NoDup_fmap_2; [apply _|]. by eapply ring_nodup.
  - intros x X. apply elem_of_list_fmap in X as (n & -> & X). eapply lay_deferred; [exact (wf_lay W)|]. by exists k, t.
Qed.
Lemma ring_alive T p l D k t n : Wf T p l D -> D !! k = Some t -> n ∈ t -> exists e, p_heap p !! n = Some e /\ e_key e = k.
Proof. intros W. apply (wf_keys W). Qed.
Lemma last_in (t : list nat) x : List.last t x = x \/ List.last t x ∈ t.
Proof.
  destruct (decide (t = [])) as [->|N]; [by left|]. right. destruct (exists_last N) as (a & y & ->). rewrite List.last_last. apply elem_of_app. right. left.
Qed.

(** The scan finds what the scan of the list finds. *)
Lemma scan_ok T p l D k h t v : Wf T p l D -> D !! k = Some (h :: t) -> forall t1 t2, t = t1 ++ t2 -> forall n, (length t1 < n)%nat ->
  p_scan n h (List.last t1 h) v p = match scan_ids (rev t1) v (shape l D p) with Ok (Some i) => Ok i | Ok None => Ok h | UB b => UB b | Abort => Abort | OutOfFuel => OutOfFuel end.
Proof.
  intros W E. pose proof (ring_nodup W E) as N. apply NoDup_cons in N as [Nh N].
  intros t1. induction t1 as [|i t1 IH] using rev_ind; intros t2 Et n Hn.
  - destruct n as [|n]; [lia|]. cbn. by rewrite decide_True.
  - rewrite app_length in Hn. cbn in Hn. destruct n as [|n]; [lia|]. rewrite List.last_last, rev_unit. cbn [p_scan scan_ids].
    assert (Hi : i ∈ t) by (rewrite Et; apply elem_of_app; left; apply elem_of_app; right; left).
    rewrite decide_False by (intros ->; done).
    destruct (wf_keys W E (n := i)) as (e & He & _); [by right|]. unfold pload, load. cbn [shape l_heap]. rewrite He. cbn [obind].
    destruct (decide (e_value e = v)); [done|].
    rewrite (@prev_elem_tail T p l D k h t t1 i t2 W E) by (by rewrite Et, <- app_assoc). cbn [obind].
    apply (IH (i :: t2)); [by rewrite Et, <- app_assoc|lia].
Qed.

(** Taking an element off its ring. *)
Lemma undefer_ok T p l D k h t i : Wf T p l D -> D !! k = Some (h :: t) -> i ∈ h :: t ->
  exists p1 m, p_rehead k h i p = Ok p1 /\ PUnlink (S i) (p_links p1) = Ok m /\
    exists D', undefer k (h :: t) i (shape l D p) = shape l D' (pset_links m p1) /\ Wf T (pset_links m p1) l D' /\ ~ deferred D' i /\ p_table p1 = p_table p /\ deferred D i.
Proof.
  intros W E Hi. pose proof (ring_nodup W E) as N. unfold p_rehead, undefer. cbn [shape l_defer].
  assert (Df : deferred D i) by (by exists k, (h :: t)).
  apply NoDup_cons in N as [Nh N].
  (* what is left is well formed *)
  assert (G : forall m D' d', Lay m l D' -> same_dom (p_links p) m -> (forall k', d' !! k' = D' !! k' ≫= head) ->
            (forall k' t', D' !! k' = Some t' -> t' <> [] /\ exists t0, D !! k' = Some t0 /\ forall x, x ∈ t' -> x ∈ t0) ->
            Wf T (pset_links m (pset_defer d' p)) l D').
  { intros m D' d' L S0 Hd Ht. destruct W as [H1 H2 H3 H4 H5 H6 H7]. split; cbn [pset_links pset_defer p_heap p_links p_defer p_next]; try done.
    - intros x. rewrite <- H2. apply S0.
    - intros k' X. by apply Ht in X as [X _].
    - intros k' t' x X Y. apply Ht in X as (_ & t0 & X & X2). eapply H5; [exact X|by apply X2].
    - intros k' x X. destruct (H6 _ _ X) as (e0 & X1 & X2 & X3). exists e0. split_and!; [done..|].
      intros (k2 & t2 & Y1 & Y2). apply Ht in Y1 as (_ & t0 & Y1 & Y3). apply X3. exists k2, t0. auto. }
  (* an element is deferred under one key only *)
  assert (O : forall k' t', D !! k' = Some t' -> i ∈ t' -> k' = k).
  { intros k' t' X Y. destruct (wf_keys W X Y) as (e1 & E1 & <-). destruct (wf_keys W E Hi) as (e2 & E2 & <-). rewrite E1 in E2. by injection E2 as <-. }
  destruct (decide (i = h)) as [->|Nih].
  - change (prev_elem h (pset_defer (delete k (p_defer p)) p)) with (prev_elem h p). rewrite (prev_elem_head W E).
    cbn [obind].
    destruct (lay_undefer (a := []) (b := t) (wf_lay W) E) as (m & Em & La & Lb & S0). cbn [app] in *.
    destruct (decide (t = [])) as [->|Nt].
    + cbn [List.last rev]. rewrite decide_True by done. eexists _, m. split; [done|]. split; [done|]. exists (delete k D).
      split; [done|]. split; [|split; [|done]].
      * apply G; [by apply La|done| |].
        -- intros k'. destruct (decide (k' = k)) as [->|X]; [by rewrite !lookup_delete|]. rewrite !lookup_delete_ne by done. apply (wf_heads W).
        -- intros k' t' X. apply lookup_delete_Some in X as [_ X]. split; [intros ->; by apply (wf_nonnil W) in X|]. by exists t'.
      * intros (k' & t' & X & Y). apply lookup_delete_Some in X as [X1 X]. apply X1. symmetry. by eapply O.
    + destruct (exists_last Nt) as (a & z & ->). rewrite List.last_last, rev_unit.
      assert (Nz : z <> h) by (intros ->; apply Nh; apply elem_of_app; right; left). rewrite decide_False by done.
      destruct (wf_keys W E (n := z)) as (ez & Ez & Kz); [right; apply elem_of_app; right; left|].
      unfold pload. cbn [pset_defer p_heap]. rewrite Ez. cbn [obind]. rewrite Kz.
      eexists _, m. split; [done|]. split; [done|]. exists (<[k := z :: rev (rev a)]> (delete k D)). split; [done|]. rewrite insert_delete_insert, rev_involutive.
      split; [|split; [|done]].
      * apply (G m (<[k := z :: a]> D)); [exact (Lb a [z] eq_refl)|done| |].
        -- intros k'. cbn [p_defer pset_defer]. destruct (decide (k' = k)) as [->|X]; [by rewrite !lookup_insert|]. rewrite !lookup_insert_ne, lookup_delete_ne by done. apply (wf_heads W).
        -- intros k' t' X. destruct (decide (k' = k)) as [->|X1].
           ++ rewrite lookup_insert in X. injection X as <-. split; [done|]. exists (h :: a ++ [z]). split; [done|].
              intros x Y. right. rewrite elem_of_app. apply elem_of_cons in Y as [->|Y]; [right; left|by left].
           ++ rewrite lookup_insert_ne in X by done. split; [intros ->; by apply (wf_nonnil W) in X|]. by exists t'.
      * rewrite deferred_insert. intros [X|(k' & t' & X & Y)].
        -- apply elem_of_cons in X as [X|X]; [congruence|]. apply Nh. apply elem_of_app. by left.
        -- apply lookup_delete_Some in X as [X1 X]. apply X1. symmetry. by eapply O.
  - apply elem_of_cons in Hi as [Hi|Hi]; [done|]. apply elem_of_list_split in Hi as (a & b & ->).
    destruct (lay_undefer (a := h :: a) (b := b) (wf_lay W) E) as (m & Em & La & Lb & S0).
    assert (Nib : i ∉ a /\ i ∉ b). { apply NoDup_app in N as (_ & N1 & N2). apply NoDup_cons in N2 as [N2 _]. split; [|done]. intros X. apply (N1 _ X). left. }
    assert (Ef : filter (fun x => x <> i) (a ++ i :: b) = a ++ b).
    { rewrite filter_app, filter_cons, decide_False by (by intros X; apply X). rewrite !LinkLay.filter_all by tauto. done. }
    rewrite Ef. eexists p, m. split; [done|]. split; [done|]. exists (<[k := h :: a ++ b]> D). split; [done|]. split; [|split; [|done]].
    + assert (Ep : pset_links m p = pset_links m (pset_defer (p_defer p) p)) by done. rewrite Ep. apply G; [|done| |].
      * pose proof (Lb [] (h :: a ++ b) eq_refl) as X. by rewrite app_nil_r in X.
      * intros k'. destruct (decide (k' = k)) as [->|X]; [rewrite lookup_insert, (wf_heads W), E; done|]. rewrite lookup_insert_ne by done. apply (wf_heads W).
      * intros k' t' X. destruct (decide (k' = k)) as [->|X1].
        -- rewrite lookup_insert in X. injection X as <-. split; [done|]. exists (h :: a ++ i :: b). split; [done|].
           intros x Y. rewrite !elem_of_cons, elem_of_app in *. rewrite elem_of_cons. tauto.
        -- rewrite lookup_insert_ne in X by done. split; [intros ->; by apply (wf_nonnil W) in X|]. by exists t'.
    + rewrite deferred_insert. intros [X|(k' & t' & X & Y)].
      * rewrite elem_of_cons, elem_of_app in X. tauto.
      * apply lookup_delete_Some in X as [X1 X]. apply X1. symmetry. eapply O; [exact X|done].
Qed.

(** ** Release *)
Lemma release_cached_ok b k v p c u c' u' : Ok_ p c -> release_cached del clk b k v (c, u) = Ok (c', u') -> exists p', p_release_cached f clk b k v (p, u) = Ok (p', u') /\ Ok_ p' c'.
Proof.
  intros (l & D & -> & W) H. unfold release_cached in H. unfold p_release_cached. cbn [fst snd] in *.
  change (l_table (shape l D p)) with (p_table p) in H. change (l_lru (shape l D p)) with (p_lru p) in H.
  destruct (p_table p !! k) as [n|] eqn:Et; [|discriminate]. destruct (wf_tab W Et) as (e & Ee & K & Y).
  unfold load in H. cbn [l_heap shape] in H. unfold pload. rewrite Ee in *. cbn [obind] in *.
  destruct (assert_ (bool_decide (e_value e = v))) as [[]| | |]; cbn [obind] in *; try discriminate.
  destruct (assert_ (0 <? e_pin e)) as [[]| | |]; cbn [obind] in *; try discriminate.
  change (read_now clk (shape l D p)) with (p_now clk p) in H. set (touch := p_lru p && b) in *.
  set (e1 := if touch then set_last (p_now clk p) e else e) in *.
  set (p1 := if touch then p_ticked p else p).
  assert (Ec1 : (if touch then after_now (shape l D p) else shape l D p) = shape l D p1) by (unfold p1; by destruct touch).
  cbn [shape] in Ec1. 
  match type of H with context [store n _ ?x] => assert (Ex : x = shape l D p1) by exact Ec1; rewrite Ex in H; clear Ex end. clear Ec1.
  assert (K1 : e_key e1 = e_key e) by (unfold e1; by destruct touch).
  assert (W1 : Wf (p_table p) p1 l D) by (unfold p1; destruct touch; [exact (wf_same (p := p) (q := p_ticked p) eq_refl eq_refl eq_refl eq_refl W)|exact W]).
  assert (Et1 : p_table p1 = p_table p) by (unfold p1; by destruct touch).
  assert (Ee1 : p_heap p1 !! n = Some e) by (unfold p1; by destruct touch).
  set (e2 := set_pin (e_pin e1 - 1) e1) in *. change (store n e2 (shape l D p1)) with (shape l D (pstore n e2 p1)) in H.
  assert (W2 : Wf (p_table p) (pstore n e2 p1) l D) by (eapply wf_store; [exact W1|exact Ee1|exact K1]).
  set (p2 := pstore n e2 p1) in *. assert (Et2 : p_table p2 = p_table p) by exact Et1.
  assert (A : is_Some (p_links p2 !! S n)) by (apply (wf_dom W2); unfold p2; cbn [pstore pset_heap p_heap]; rewrite lookup_insert; by eexists).
  clearbody p2. destruct (e_pin e2 =? 0).
  2: { injection H as <- <-. exists p2. split; [done|]. exists l, D. by rewrite Et2. }
  assert (G : forall p3 l3, Wf (p_table p) p3 l3 D -> p_table p3 = p_table p ->
     (let c := set_pinned (l_pinned (shape l3 D p3) - e_units e2) (shape l3 D p3) in if Overfull c then Remove del k (c, u) else Ok (c, u)) = Ok (c', u') ->
     exists p', (let p := pset_pinned (p_pinned p3 - e_units e2) p3 in if POverfull p then PRemove f k (p, u) else Ok (p, u)) = Ok (p', u') /\ Ok_ p' c').
  { intros p3 l3 W3 Et3 H3. cbn zeta in *. set (p4 := pset_pinned (p_pinned p3 - e_units e2) p3).
    change (set_pinned _ _) with (shape l3 D p4) in H3. change (Overfull (shape l3 D p4)) with (POverfull p4) in H3.
    assert (R4 : Ok_ p4 (shape l3 D p4)) by (exists l3, D; split; [done|]; change (p_table p4) with (p_table p3); rewrite Et3; eapply wf_same; [..|exact W3]; done).
    destruct (POverfull p4); [by eapply remove_ok|]. injection H3 as <- <-. by exists p4. }
  destruct touch eqn:Eto.
  - unfold LinkFront in H. cbn [shape l_list] in H. destruct (decide (n ∈ l)) as [X|X]; [discriminate|]. cbn [obind] in H.
    destruct (lay_front (wf_lay W2) A X Y) as (m & Em & L & S0). pose proof (wf_links W2 L S0) as W3.
    rewrite (@on_links_ok _ _ m) by exact Em. cbn [obind].
    apply (G (pset_links m p2) (n :: l)); [done|done|exact H].
  - cbn [obind] in *. by apply (G p2 l).
Qed.
Lemma scan_ids_app (l1 l2 : list nat) v c : scan_ids (l1 ++ l2) v c = let! r := scan_ids l1 v c in match r with Some i => Ok (Some i) | None => scan_ids l2 v c end.
Proof.
  induction l1 as [|i l1 IH]; [done|]. cbn [app scan_ids]. destruct (load i c) as [e| | |]; cbn [obind]; try done. by destruct (decide (e_value e = v)).
Qed.
Lemma scan_ids_in (l1 : list nat) v c i : scan_ids l1 v c = Ok (Some i) -> i ∈ l1 /\ exists e, l_heap c !! i = Some e /\ e_value e = v.
Proof.
  induction l1 as [|j l1 IH]; [done|]. cbn [scan_ids]. unfold load. destruct (l_heap c !! j) as [e|] eqn:E; [|done]. cbn [obind].
  destruct (decide (e_value e = v)) as [Ev|Ev].
  - intros [= <-]. split; [left|]. by exists e.
  - intros H. apply IH in H as [H1 H2]. split; [by right|done].
Qed.
Lemma release_ok b k v p c u c' u' : Ok_ p c -> ReleaseWithOptions del clk b k v (c, u) = Ok (c', u') -> exists p', PRelease f clk b k v (p, u) = Ok (p', u') /\ Ok_ p' c'.
Proof.
  intros R H. pose proof R as (l & D & Ec & W). unfold ReleaseWithOptions in H. unfold PRelease. cbn [fst snd] in *.
  rewrite Ec in H. cbn [shape l_defer] in H. rewrite (wf_heads W). rewrite Ec in R.
  destruct (D !! k) as [[|h t]|] eqn:Ed; cbn [mbind option_bind head].
  - by apply (wf_nonnil W) in Ed.
  - rewrite (prev_elem_head W Ed). cbn [obind]. unfold scan_deferred in H. rewrite scan_ids_app in H.
    rewrite (@scan_ok _ p l D k h t v W Ed t []) by (try (by rewrite app_nil_r); pose proof (ring_fuel W Ed) as X; cbn in X; lia).
    change (scan_ids (rev t) v _) with (scan_ids (rev t) v (shape l D p)) in H.
    assert (G : forall i e, i ∈ h :: t -> p_heap p !! i = Some e ->
      (let! _ := assert_ (0 <? e_pin e) in
       let e := set_pin (e_pin e - 1) e in
       let c := store i e (shape l D p) in
       if e_pin e =? 0 then Discard del i (undefer k (h :: t) i c, u) else Ok (c, u)) = Ok (c', u') ->
      exists p', (let! _ := assert_ (0 <? e_pin e) in
        let e := set_pin (e_pin e - 1) e in
        let p := pstore i e p in
        if e_pin e =? 0 then
          let! p := p_rehead k h i p in
          let! p := on_links (PUnlink (S i)) p in
          PDiscard f i (p, u)
        else Ok (p, u)) = Ok (p', u') /\ Ok_ p' c').
    { intros i e Hi He Hr. destruct (assert_ (0 <? e_pin e)) as [[]| | |]; cbn [obind] in *; try discriminate.
      set (e2 := set_pin (e_pin e - 1) e) in *. change (store i e2 (shape l D p)) with (shape l D (pstore i e2 p)) in Hr.
      assert (W2 : Wf (p_table p) (pstore i e2 p) l D) by (eapply wf_store; [exact W|exact He|done]).
      destruct (e_pin e2 =? 0).
      2: { injection Hr as <- <-. eexists. split; [done|]. exists l, D. split; [done|]. exact W2. }
      destruct (undefer_ok W2 Ed Hi) as (p1 & m & E1 & Em & D' & Eu & W3 & Nd & Et & Dd). rewrite E1. cbn [obind]. rewrite (on_links_ok Em). cbn [obind].
      change (p_table (pstore i e2 p)) with (p_table p) in Et.
      rewrite Eu in Hr. assert (Et3 : p_table (pset_links m p1) = p_table p) by exact Et. apply (discard_ok F) in Hr; rewrite ?Et3; [done|done| | |].
      - intros X. exact (lay_disjoint (wf_lay W2) X Dd).
      - done.
      - intros k' X. destruct (wf_tab W X) as (_ & _ & _ & Y). done. }
    change (load ?i _) with (load i (shape l D p)) in H.
    destruct (scan_ids (rev t) v (shape l D p)) as [[i|]| | |] eqn:Es; cbn [obind] in *; try discriminate.
    + destruct (scan_ids_in Es) as (Hi & e & He & Ev). cbn [shape l_heap] in He. unfold load in H. cbn [shape l_heap] in H. rewrite He in H. cbn [obind] in H.
      unfold pload. rewrite He. cbn [obind]. rewrite decide_True by done. apply G; [|done|exact H].
      right. rewrite elem_of_list_In, <- in_rev, <- elem_of_list_In in Hi. done.
    + destruct (wf_keys W Ed (n := h)) as (e & He & _); [left|]. unfold pload. rewrite He. cbn [obind].
      cbn [scan_ids] in H. unfold load in H. cbn [shape l_heap] in H. rewrite He in H. cbn [obind] in H.
      destruct (decide (e_value e = v)).
      * cbn [obind] in H. rewrite He in H. cbn [obind] in H. apply G; [left|done|exact H].
      * cbn [obind] in H. by eapply release_cached_ok.
  - by eapply release_cached_ok.
Qed.

(** ** Insert *)
Lemma insert_pinned_ok n k v x p c u c' u' : Ok_ p c -> InsertPinned del clk n k v x (c, u) = Ok (c', u') -> exists p', PInsertPinned f clk n k v x (p, u) = Ok (p', u') /\ Ok_ p' c'.
Proof.
  intros R H. unfold InsertPinned in H. unfold PInsertPinned.
  destruct (Remove del k (c, u)) as [[c1 u1]| | |] eqn:E1; cbn [obind] in H; try discriminate.
  apply (remove_ok R) in E1 as (p1 & Ep1 & l & D & -> & W). rewrite Ep1. cbn [obind fst snd] in *. clear R Ep1 p c u.
  cbn [on_links obind]. unfold on_links at 1. cbn [obind].
  set (i := p_next p1) in *. set (e := Elem k v 1 x (p_now clk p1)).
  set (p2 := pset_table (<[k := i]> (p_table p1)) (pset_pinned (p_pinned p1 + x) (pset_units (p_units p1 + x) (pset_links (PNew (S i) (p_links p1)) (pset_next (S i) (pstore i e (p_ticked p1))))))).
  change (set_table _ _) with (shape l D p2) in H.
  assert (Hn : p_heap p1 !! i = None).
  { destruct (p_heap p1 !! i) eqn:E; [|done]. assert (is_Some (p_heap p1 !! i)) as X by (by eexists). apply (wf_fresh W) in X. unfold i in X. lia. }
  assert (Hl : p_links p1 !! S i = None).
  { destruct (p_links p1 !! S i) eqn:E; [|done]. assert (is_Some (p_links p1 !! S i)) as X by (by eexists). apply (wf_dom W) in X. rewrite Hn in X. by destruct X. }
  assert (Nd : ~ deferred D i).
  { intros X. pose proof (lay_deferred (wf_lay W) X) as Y. rewrite Hl in Y. by destruct Y. }
  assert (Nl : i ∉ l). { intros X. pose proof (lay_listed (wf_lay W) X) as Y. rewrite Hl in Y. by destruct Y. }
  assert (W2 : Wf (p_table p2) p2 l D).
  { pose proof (lay_new (wf_lay W) Hl) as L. destruct W as [H1 H2 H3 H4 H5 H6 H7].
    assert (S0 : forall y e0, p_heap p1 !! y = Some e0 -> <[i := e]> (p_heap p1) !! y = Some e0).
    { intros y e0 X. rewrite lookup_insert_ne; [done|]. intros <-. by rewrite Hn in X. }
    split; cbn [p2 pset_table pset_pinned pset_units pset_links pset_next pstore pset_heap p_ticked pset_tick p_heap p_links p_defer p_next p_table]; try done.
    - intros y. unfold PNew. destruct (decide (y = i)) as [->|N]; [rewrite !lookup_insert; split; by eexists|]. rewrite !lookup_insert_ne by congruence. apply H2.
    - intros k' t y X Y. destruct (H5 _ _ _ X Y) as (e0 & X1 & X2). exists e0. split; [by apply S0|done].
    - intros k' y X. destruct (decide (k' = k)) as [->|N].
      + rewrite lookup_insert in X. injection X as <-. exists e. by rewrite lookup_insert.
      + rewrite lookup_insert_ne in X by done. destruct (H6 _ _ X) as (e0 & X1 & X2 & X3). exists e0. split; [by apply S0|done].
    - intros y X. destruct (decide (y = i)) as [->|N]; [lia|]. rewrite lookup_insert_ne in X by congruence. apply H7 in X. unfold i. lia. }
  change (l_lru (shape l D p2)) with (p_lru p2) in H.
  assert (G : exists p', (let! p := (if p_lru p2 then Ok p2 else on_links (PLink (S i) 0) p2) in PGarbageCollect f n (p, u1)) = Ok (p', u') /\ Ok_ p' c'); [|exact G].
  destruct (p_lru p2).
  - cbn [obind] in *. eapply garbage_ok; [|exact H]. by exists l, D.
  - unfold LinkFront in H. cbn [shape l_list] in H. rewrite decide_False in H by done. cbn [obind] in H.
    assert (A : is_Some (p_links p2 !! S i)) by (cbn; unfold PNew; rewrite lookup_insert; by eexists).
    destruct (lay_front (wf_lay W2) A Nl Nd) as (m & Em & L & S0). pose proof (wf_links W2 L S0) as W3.
    rewrite (@on_links_ok _ _ m) by exact Em. cbn [obind]. eapply garbage_ok; [|exact H]. by exists (i :: l), D.
Qed.
Lemma insert_ok n k v x p c u c' u' : Ok_ p c -> Lru.Insert del clk n k v x (c, u) = Ok (c', u') -> exists p', PInsert f clk n k v x (p, u) = Ok (p', u') /\ Ok_ p' c'.
Proof.
  intros R H. unfold Lru.Insert in H. unfold PInsert. destruct (InsertPinned del clk n k v x (c, u)) as [[c1 u1]| | |] eqn:E1; cbn [obind] in H; try discriminate.
  apply (insert_pinned_ok R) in E1 as (p1 & Ep1 & R1). rewrite Ep1. cbn [obind]. by eapply release_ok.
Qed.
End proofs.
