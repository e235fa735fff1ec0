(** Simulation of the cache model by plain lists of elements (proof-internal vocabulary). *)
From stdpp Require Import gmap.
From Verif Require Import Base Proto Lru.
Local Open Scope Z_scope.
Set Implicit Arguments.

Lemma ofold_app {A B} (f : A -> B -> outcome A) a l1 l2 :
  ofold f a (l1 ++ l2) = let! a' := ofold f a l1 in ofold f a' l2.
Proof. revert a. induction l1 as [|x l1 IH]; intros a; cbn [ofold app]; [done|]. destruct (f a x); cbn [obind]; auto. Qed.
Lemma obind_assoc {A B C} (x : outcome A) (f : A -> outcome B) (g : B -> outcome C) :
  obind (obind x f) g = obind x (fun a => obind (f a) g).
Proof. destruct x; done. Qed.
Lemma obind_ext {A B} (x : outcome A) (f g : A -> outcome B) : (forall a, f a = g a) -> obind x f = obind x g.
Proof. intros E. destruct x; cbn; auto. Qed.

Local Arguments sum_Z : simpl never.
Lemma sum_Z_perm l1 l2 : l1 ≡ₚ l2 -> sum_Z l1 = sum_Z l2.
Proof. unfold sum_Z. induction 1; cbn; lia. Qed.
Global Instance sum_Z_proper : Proper ((≡ₚ) ==> eq) sum_Z.
Proof. intros l1 l2. apply sum_Z_perm. Qed.
Lemma sum_Z_app l1 l2 : sum_Z (l1 ++ l2) = sum_Z l1 + sum_Z l2.
Proof. unfold sum_Z. induction l1; cbn; lia. Qed.
Lemma sum_Z_cons x l : sum_Z (x :: l) = x + sum_Z l.
Proof. done. Qed.

Lemma filter_all {A} (P : A -> Prop) `{!∀ x, Decision (P x)} (l : list A) : (forall x, x ∈ l -> P x) -> filter P l = l.
Proof.
  induction l as [|x l IH]; intros Hl; [done|]. rewrite filter_cons_True by (apply Hl; left).
  f_equal. apply IH. intros y Hy; apply Hl; by right.
Qed.

Lemma filter_neq (a b : list nat) (id : nat) : NoDup (a ++ id :: b) -> filter (fun x => x <> id) (a ++ id :: b) = a ++ b.
Proof.
  intros N. apply NoDup_app in N as (Na & D & Nb). apply NoDup_cons in Nb as [Nid Nb].
  rewrite filter_app, filter_cons_False by (intros H; by apply H).
  rewrite !filter_all; [done| |].
  - intros x Hx ->. done.
  - intros x Hx ->. apply (D id); [done|left].
Qed.
Lemma filter_notin (l : list nat) (id : nat) : id ∉ l -> filter (fun x => x <> id) l = l.
Proof. intros N. apply filter_all. intros x Hx ->. done. Qed.

Lemma prev_in_app a b id o : id ∉ a ->
  prev_in o id (a ++ id :: b) = Ok (match last a with Some x => Some x | None => o end).
Proof.
  revert o. induction a as [|x a IH]; intros o N; cbn [app prev_in].
  - rewrite decide_True by done. done.
  - rewrite decide_False by (intros ->; apply N; left). rewrite IH by (intros H; apply N; by right).
    destruct a as [|y a]; [done|]. change (last (x :: y :: a)) with (last (y :: a)).
    destruct (last (y :: a)) eqn:E; [done|]. by apply last_None in E.
Qed.
Lemma next_in_app a b id : id ∉ a -> next_in id (a ++ id :: b) = Ok (head b).
Proof.
  induction a as [|x a IH]; intros N; cbn [app next_in].
  - by rewrite decide_True.
  - rewrite decide_False by (intros ->; apply N; left). apply IH. intros H; apply N; by right.
Qed.

(** ** The list view *)
Record ideal (V : Type) := Ideal {
  q_lst : list (elem V);    (* the recency list, newest first *)
  q_pin : list (elem V);    (* cached, in use and therefore off the list (LRU mode) *)
  q_def : list (elem V);    (* detached but in use *)
  q_max : Z; q_idle : Z; q_lru : bool; q_tick : nat }.
Arguments q_lst {V}. Arguments q_pin {V}. Arguments q_def {V}. Arguments q_max {V}. Arguments q_idle {V}.
Arguments q_lru {V}. Arguments q_tick {V}.

Section sim.
Context {V U : Type} `{!EqDecision V}.
Implicit Types (c : lru V) (s : ideal V) (e : elem V) (L P D : list (nat * elem V)).

Definition all_elems s := q_lst s ++ q_pin s ++ q_def s.
Definition cached_elems s := q_lst s ++ q_pin s.
Definition total s := sum_Z (e_units <$> all_elems s).
Definition pinned_part l := sum_Z ((fun e => if 0 <? e_pin e then e_units e else 0) <$> l).

Definition tab (l : list (nat * elem V)) : list (string * nat) := (fun p => (e_key p.2, p.1)) <$> l.
Definition of_key (k : string) (l : list (nat * elem V)) : list nat := (filter (fun p => e_key p.2 = k) l).*1.

Record Core c s L P D : Prop := {
  ab_list : l_list c = L.*1;
  ab_lst : q_lst s = L.*2;
  ab_pin : q_pin s = P.*2;
  ab_def : q_def s = D.*2;
  ab_heap : map_to_list (l_heap c) ≡ₚ L ++ P ++ D;
  ab_defer : forall k, default [] (l_defer c !! k) ≡ₚ of_key k D;
  ab_nonnil : forall k, l_defer c !! k <> Some [];
  ab_next : Forall (fun p => (p.1 < l_next_id c)%nat) (L ++ P ++ D);
  ab_units : l_units c = total s;
  ab_pinned : l_pinned c = pinned_part (cached_elems s);
  ab_max : l_max c = q_max s;
  ab_idle : l_idle c = q_idle s;
  ab_lru : l_lru c = q_lru s;
  ab_tick : l_tick c = q_tick s;
  (* shape *)
  ab_lstpin : q_lru s = true -> Forall (fun e => e_pin e = 0) (q_lst s);
  ab_pinpin : Forall (fun e => 0 < e_pin e) (q_pin s);
  ab_pinlru : q_lru s = false -> q_pin s = [];
  ab_defpin : Forall (fun e => 0 < e_pin e) (q_def s);
  ab_pos : Forall (fun e => 0 <= e_pin e /\ 0 <= e_units e) (all_elems s);
  ab_vals : NoDup (e_value <$> all_elems s)
}.

(** [Core] leaves the table out: RemoveAll empties it only at the end. *)
Definition Abs c s L P D : Prop := Core c s L P D /\ map_to_list (l_table c) ≡ₚ tab (L ++ P).

Lemma perm_elem {A} (l1 l2 : list A) (x : A) : l1 ≡ₚ l2 -> x ∈ l1 <-> x ∈ l2.
Proof. intros E. by rewrite E. Qed.

Lemma core_ids c s L P D : Core c s L P D -> NoDup ((L ++ P ++ D).*1).
Proof. intros A. rewrite <- (ab_heap A). apply NoDup_fst_map_to_list. Qed.
Lemma abs_keys c s L P D : Abs c s L P D -> NoDup (e_key <$> cached_elems s).
Proof.
  intros [A T]. unfold cached_elems. rewrite (ab_lst A), (ab_pin A), <- fmap_app.
  pose proof (NoDup_fst_map_to_list (l_table c)) as N. rewrite T in N. unfold tab in N.
  rewrite <- list_fmap_compose in N. rewrite <- list_fmap_compose. exact N.
Qed.
Lemma core_look c s L P D id e : Core c s L P D -> (id, e) ∈ L ++ P ++ D <-> l_heap c !! id = Some e.
Proof. intros A. rewrite <- elem_of_map_to_list. symmetry. apply perm_elem, (ab_heap A). Qed.
Lemma abs_tab c s L P D k id : Abs c s L P D ->
  l_table c !! k = Some id <-> exists e, (id, e) ∈ L ++ P /\ e_key e = k.
Proof.
  intros [A T]. rewrite <- elem_of_map_to_list. rewrite (perm_elem _ T).
  unfold tab. rewrite elem_of_list_fmap. split.
  - intros ([i e] & E & H). cbn in E. simplify_eq. eauto.
  - intros (e & H & <-). exists (id, e). done.
Qed.
Lemma core_unlinked c s L P D id e : Core c s L P D -> (id, e) ∈ P ++ D -> id ∉ L.*1.
Proof.
  intros A H K. pose proof (core_ids A) as N. rewrite fmap_app in N. apply NoDup_app in N as (_ & N & _).
  apply (N id K). apply elem_of_list_fmap. exists (id, e). done.
Qed.

(** The deferred lists hold exactly the detached elements. *)
Lemma of_key_elem k D id : id ∈ of_key k D <-> exists e, (id, e) ∈ D /\ e_key e = k.
Proof.
  unfold of_key. rewrite elem_of_list_fmap. split.
  - intros ([i e] & -> & H). apply elem_of_list_filter in H as [H1 H2]. eauto.
  - intros (e & H & E). exists (id, e). split; [done|]. by apply elem_of_list_filter.
Qed.
Lemma of_key_perm k D D' : D ≡ₚ D' -> of_key k D ≡ₚ of_key k D'.
Proof. intros E. unfold of_key. by rewrite E. Qed.

Lemma pinned_part_app l1 l2 : pinned_part (l1 ++ l2) = pinned_part l1 + pinned_part l2.
Proof. unfold pinned_part. by rewrite fmap_app, sum_Z_app. Qed.
Lemma pinned_part_cons e l : pinned_part (e :: l) = (if 0 <? e_pin e then e_units e else 0) + pinned_part l.
Proof. done. Qed.
Lemma pinned_part_perm l1 l2 : l1 ≡ₚ l2 -> pinned_part l1 = pinned_part l2.
Proof. intros E. unfold pinned_part. apply sum_Z_perm. by rewrite E. Qed.

(** ** Passive deleters: they work on the owner's state only. *)
Variable f : U -> string * V -> outcome U.
Definition passive (k : string) (v : V) (w : world (V:=V) (U:=U)) : outcome (world (V:=V) (U:=U)) :=
  let! u := f w.2 (k, v) in Ok (w.1, u).

Variable clk : nat -> Z.
Variable ord : hash_order.

Definition kv (e : elem V) : string * V := (e_key e, e_value e).

(** Running an operation that destroys [log] and ends in cache [c']. *)
Definition runs {R} (o : world (V:=V) (U:=U) -> outcome R) (c : lru V) (log : list (string * V))
    (ret : lru V -> U -> R) (c' : lru V) : Prop :=
  forall u, o (c, u) = let! u' := ofold f u log in Ok (ret c' u').

Lemma discard_runs c id e : l_heap c !! id = Some e -> e_pin e = 0 ->
  runs (Discard passive id) c [kv e] pair
    (set_heap (delete id (l_heap c)) (set_units (l_units c - e_units e) c)).
Proof.
  intros H Hp u. unfold Discard, load. cbn [fst snd]. rewrite H. cbn [obind]. rewrite Hp.
  change (assert_ (0 =? 0)) with (Ok tt). cbn [obind ofold]. unfold passive. cbn [snd fst].
  unfold kv. destruct (f u (e_key e, e_value e)); cbn [obind]; try done.
  cbn [fst snd set_units l_heap]. rewrite H. done.
Qed.


Definition with_lists (l p d : list (elem V)) (s : ideal V) : ideal V := Ideal l p d (q_max s) (q_idle s) (q_lru s) (q_tick s).

Lemma removeelem c s L P D id e L' P' : Core c s L P D ->
  L ++ P ≡ₚ (id, e) :: L' ++ P' -> filter (fun x => x <> id) L.*1 = L'.*1 -> L' ⊆ L -> P' ⊆ P ->
  exists c',
    runs (RemoveElem passive id) c (if e_pin e =? 0 then [kv e] else []) pair c' /\
    Core c' (with_lists L'.*2 P'.*2 (if e_pin e =? 0 then D.*2 else e :: D.*2) s) L' P'
      (if e_pin e =? 0 then D else (id, e) :: D) /\
    l_table c' = l_table c.
Proof.
  intros A E F SL SP.
  assert (EH : L ++ P ++ D ≡ₚ (id, e) :: L' ++ P' ++ D) by (rewrite app_assoc, E; cbn; by rewrite <- app_assoc).
  assert (Hid : (id, e) ∈ L ++ P ++ D) by (rewrite EH; left).
  pose proof (proj1 (core_look _ _ A) Hid) as Hh.
  assert (Hpos : 0 <= e_pin e /\ 0 <= e_units e).
  { pose proof (ab_pos A) as Q. rewrite Forall_forall in Q. apply Q.
    unfold all_elems. rewrite (ab_lst A), (ab_pin A), (ab_def A), <- !fmap_app.
    apply elem_of_list_fmap. exists (id, e). done. }
  assert (Hall : all_elems s ≡ₚ e :: L'.*2 ++ P'.*2 ++ D.*2).
  { unfold all_elems. rewrite (ab_lst A), (ab_pin A), (ab_def A), <- !fmap_app, EH. done. }
  assert (Hc : cached_elems s ≡ₚ e :: L'.*2 ++ P'.*2).
  { unfold cached_elems. rewrite (ab_lst A), (ab_pin A), <- !fmap_app, E. done. }
  assert (SL2 : L'.*2 ⊆ q_lst s).
  { rewrite (ab_lst A). intros x Hx. apply elem_of_list_fmap in Hx as (p & -> & Hp).
    apply elem_of_list_fmap. exists p. auto. }
  assert (SP2 : P'.*2 ⊆ q_pin s).
  { rewrite (ab_pin A). intros x Hx. apply elem_of_list_fmap in Hx as (p & -> & Hp).
    apply elem_of_list_fmap. exists p. auto. }
  assert (Fl : forall (Q : elem V -> Prop) l1 l2, l1 ⊆ l2 -> Forall Q l2 -> Forall Q l1).
  { intros Q l1 l2 S. rewrite !Forall_forall. auto. }
  destruct (e_pin e =? 0) eqn:Hp.
  - apply Z.eqb_eq in Hp.
    eexists. split; [|split].
    + intros u. unfold RemoveElem, load. cbn [fst snd]. rewrite Hh. cbn [obind]. rewrite Hp. cbn [Z.ltb Z.compare].
      change (0 <? 0) with false. cbv iota.
      apply discard_runs; [exact Hh|done].
    + cbn [Unlink set_list l_heap l_units].
      constructor; cbn [Unlink set_list set_heap set_units l_heap l_next_id l_table l_defer l_list l_units l_max l_pinned l_idle l_lru l_tick
                        with_lists q_lst q_pin q_def q_max q_idle q_lru q_tick]; try (by apply A); try reflexivity.
      * rewrite (ab_list A). done.
      * eapply (@Permutation_cons_inv _ _ _ (id, e)). rewrite map_to_list_delete by done. by rewrite (ab_heap A).
      * pose proof (ab_next A) as N. rewrite EH in N. by apply Forall_cons in N as [_ N].
      * rewrite (ab_units A). unfold total at 1. rewrite Hall. cbn [fmap list_fmap]. rewrite sum_Z_cons.
        unfold total, all_elems. cbn [with_lists q_lst q_pin q_def]. lia.
      * rewrite (ab_pinned A), (pinned_part_perm Hc), pinned_part_cons, Hp. unfold cached_elems. cbn [with_lists q_lst q_pin].
        change (0 <? 0) with false. cbv iota. lia.
      * intros Q. eapply Fl; [exact SL2|]. by apply (ab_lstpin A).
      * eapply Fl; [exact SP2|]. apply (ab_pinpin A).
      * intros Q. rewrite (ab_pinlru A Q) in SP2. destruct (P'.*2) as [|x l]; [done|]. exfalso.
        apply (not_elem_of_nil x), SP2. left.
      * rewrite <- (ab_def A). apply (ab_defpin A).
      * pose proof (ab_pos A) as N. rewrite Hall in N. by apply Forall_cons in N as [_ N].
      * pose proof (ab_vals A) as N. rewrite Hall in N. by apply NoDup_cons in N as [_ N].
    + done.
  - apply Z.eqb_neq in Hp. assert (Hp' : 0 <? e_pin e = true) by (apply Z.ltb_lt; lia).
    assert (Hd : exists d, (forall k, default [] (d !! k) ≡ₚ of_key k ((id, e) :: D)) /\ (forall k, d !! k <> Some []) /\
       runs (RemoveElem passive id) c [] pair (set_defer d (set_pinned (l_pinned c - e_units e) (Unlink id c)))).
    { unfold runs, RemoveElem, load. cbn [fst snd]. rewrite Hh. cbn [obind]. rewrite Hp'. cbn [Unlink set_list set_pinned l_defer].
      assert (X : forall k, of_key k ((id, e) :: D) ≡ₚ
                  if decide (k = e_key e) then id :: of_key k D else of_key k D).
      { intros k. unfold of_key. destruct (decide (k = e_key e)) as [->|N].
        - by rewrite filter_cons_True.
        - rewrite filter_cons_False; [done|]. cbn. congruence. }
      destruct (l_defer c !! e_key e) as [[|h l]|] eqn:Ed.
      - exfalso. by apply (ab_nonnil A) in Ed.
      - exists (<[e_key e := h :: id :: l]> (l_defer c)). split; [|split].
        + intros k. rewrite (X k). destruct (decide (k = e_key e)) as [->|N].
          * rewrite lookup_insert. cbn. pose proof (ab_defer A (e_key e)) as Y. rewrite Ed in Y. cbn in Y.
            rewrite Permutation_swap, Y. done.
          * rewrite lookup_insert_ne by done. apply (ab_defer A).
        + intros k. destruct (decide (k = e_key e)) as [->|N].
          * by rewrite lookup_insert.
          * rewrite lookup_insert_ne by done. apply (ab_nonnil A).
        + intros u. cbn [ofold obind]. done.
      - exists (<[e_key e := [id]]> (l_defer c)). split; [|split].
        + intros k. rewrite (X k). destruct (decide (k = e_key e)) as [->|N].
          * rewrite lookup_insert. cbn. pose proof (ab_defer A (e_key e)) as Y. rewrite Ed in Y. cbn in Y.
            by rewrite <- Y.
          * rewrite lookup_insert_ne by done. apply (ab_defer A).
        + intros k. destruct (decide (k = e_key e)) as [->|N].
          * by rewrite lookup_insert.
          * rewrite lookup_insert_ne by done. apply (ab_nonnil A).
        + intros u. cbn [ofold obind]. done. }
    destruct Hd as (d & Hd1 & Hd2 & Hrun).
    eexists. split; [exact Hrun|split; [|done]].
    constructor; cbn [Unlink set_list set_heap set_units set_defer set_pinned l_heap l_next_id l_table l_defer l_list l_units l_max l_pinned l_idle l_lru l_tick
                        with_lists q_lst q_pin q_def q_max q_idle q_lru q_tick]; try (by apply A); try reflexivity.
    + rewrite (ab_list A). done.
    + rewrite (ab_heap A), EH. rewrite !app_assoc. by rewrite <- Permutation_middle.
    + exact Hd1.
    + exact Hd2.
    + pose proof (ab_next A) as N. rewrite EH in N. rewrite app_assoc. rewrite <- Permutation_middle. by rewrite <- app_assoc.
    + rewrite (ab_units A). unfold total. apply sum_Z_perm. rewrite Hall. unfold all_elems. cbn [with_lists q_lst q_pin q_def].
      rewrite !app_assoc. by rewrite <- Permutation_middle.
    + rewrite (ab_pinned A), (pinned_part_perm Hc), pinned_part_cons, Hp'. unfold cached_elems. cbn [with_lists q_lst q_pin]. lia.
    + intros Q. eapply Fl; [exact SL2|]. by apply (ab_lstpin A).
    + eapply Fl; [exact SP2|]. apply (ab_pinpin A).
    + intros Q. rewrite (ab_pinlru A Q) in SP2. destruct (P'.*2) as [|x l]; [done|]. exfalso.
      apply (not_elem_of_nil x), SP2. left.
    + apply Forall_cons. split; [lia|]. rewrite <- (ab_def A). apply (ab_defpin A).
    + pose proof (ab_pos A) as N. rewrite Hall in N. unfold all_elems. cbn [with_lists q_lst q_pin q_def].
      rewrite app_assoc, <- Permutation_middle, <- app_assoc. done.
    + pose proof (ab_vals A) as N. rewrite Hall in N. unfold all_elems. cbn [with_lists q_lst q_pin q_def].
      rewrite app_assoc, <- Permutation_middle, <- app_assoc. done.
Qed.


(** ** Cached elements: Remove *)
Lemma core_table c s L P D t : Core c s L P D -> Core (set_table t c) s L P D.
Proof. intros A. constructor; apply A. Qed.

Lemma tab_perm L L' : L ≡ₚ L' -> tab L ≡ₚ tab L'.
Proof. intros E. unfold tab. by rewrite E. Qed.

Definition unlinked (e : elem V) (d : list (elem V)) : list (elem V) := if e_pin e =? 0 then d else e :: d.

Lemma remove_found c s L P D id e L' P' : Abs c s L P D ->
  L ++ P ≡ₚ (id, e) :: L' ++ P' -> filter (fun x => x <> id) L.*1 = L'.*1 -> L' ⊆ L -> P' ⊆ P ->
  exists c' D',
    runs (Remove passive (e_key e)) c (if e_pin e =? 0 then [kv e] else []) pair c' /\
    Abs c' (with_lists L'.*2 P'.*2 (unlinked e (q_def s)) s) L' P' D'.
Proof.
  intros [A T] E F SL SP.
  assert (Ht : l_table c !! e_key e = Some id).
  { apply (abs_tab _ _ (conj A T)). exists e. split; [|done]. rewrite E. left. }
  destruct (removeelem (core_table (delete (e_key e) (l_table c)) A) E F SL SP) as (c' & R & C & Tc).
  exists c'. eexists. split; [|split].
  - intros u. unfold Remove. cbn [fst snd]. rewrite Ht. apply R.
  - unfold unlinked. rewrite (ab_def A). exact C.
  - rewrite Tc. cbn [set_table l_table].
    eapply (@Permutation_cons_inv _ _ _ (e_key e, id)). rewrite map_to_list_delete by done.
    rewrite T, (tab_perm E). done.
Qed.

Lemma remove_lst c s La id e Lb P D : Abs c s (La ++ (id, e) :: Lb) P D ->
  exists c' D',
    runs (Remove passive (e_key e)) c (if e_pin e =? 0 then [kv e] else []) pair c' /\
    Abs c' (with_lists (La ++ Lb).*2 P.*2 (unlinked e (q_def s)) s) (La ++ Lb) P D'.
Proof.
  intros A. apply (remove_found (L := La ++ (id, e) :: Lb) (P := P) (D := D) (id := id)); [exact A| | | |done].
  - rewrite <- !app_assoc. cbn. symmetry. apply Permutation_middle.
  - pose proof (core_ids (proj1 A)) as N. rewrite !fmap_app in *. cbn [fmap list_fmap fst] in *.
    apply filter_neq. rewrite <- !app_assoc in N. cbn [app] in N. rewrite app_comm_cons, app_assoc in N.
    by apply NoDup_app in N as [N _].
  - intros x Hx. apply elem_of_app in Hx. apply elem_of_app. destruct Hx as [Hx|Hx]; [by left|right; by apply elem_of_list_further].
Qed.

Lemma remove_pin c s L Pa id e Pb D : Abs c s L (Pa ++ (id, e) :: Pb) D ->
  exists c' D',
    runs (Remove passive (e_key e)) c (if e_pin e =? 0 then [kv e] else []) pair c' /\
    Abs c' (with_lists L.*2 (Pa ++ Pb).*2 (unlinked e (q_def s)) s) L (Pa ++ Pb) D'.
Proof.
  intros A. apply (remove_found (L := L) (P := Pa ++ (id, e) :: Pb) (D := D) (id := id)); [exact A| | |done|].
  - rewrite !app_assoc. symmetry. apply Permutation_middle.
  - apply filter_notin. eapply core_unlinked; [apply A|]. apply elem_of_app. left. apply elem_of_app. right. left.
  - intros x Hx. apply elem_of_app in Hx. apply elem_of_app. destruct Hx as [Hx|Hx]; [by left|right; by apply elem_of_list_further].
Qed.

Lemma remove_none c s L P D k : Abs c s L P D -> k ∉ e_key <$> cached_elems s ->
  forall u, Remove (U:=U) passive k (c, u) = Ok (c, u).
Proof.
  intros A N u. unfold Remove. cbn [fst]. destruct (l_table c !! k) as [id|] eqn:E; [|done].
  exfalso. apply N. apply (abs_tab _ _ A) in E as (e & H & <-). apply elem_of_list_fmap. exists e. split; [done|].
  unfold cached_elems. rewrite (ab_lst (proj1 A)), (ab_pin (proj1 A)), <- fmap_app. apply elem_of_list_fmap. exists (id, e). done.
Qed.

(** ** Garbage collection *)
Fixpoint evict (mx tot : Z) (r : list (elem V)) : list (elem V) * list (elem V) :=
  match r with
  | [] => ([], [])
  | e :: r' =>
      if mx <? tot then
        if e_pin e =? 0 then let p := evict mx (tot - e_units e) r' in (p.1, e :: p.2)
        else let p := evict mx tot r' in (e :: p.1, p.2)
      else (r, [])
  end.

Lemma runs_bind {R} (o1 : world (V:=V) (U:=U) -> outcome (world (V:=V) (U:=U))) (o2 : world (V:=V) (U:=U) -> outcome R)
    c c1 c2 l1 l2 ret :
  runs o1 c l1 pair c1 -> runs o2 c1 l2 ret c2 -> runs (fun w => let! w' := o1 w in o2 w') c (l1 ++ l2) ret c2.
Proof.
  intros H1 H2 u. rewrite H1, ofold_app, obind_assoc, obind_assoc. apply obind_ext. intros a. cbn [obind]. apply H2.
Qed.
Lemma runs_ext {R} (o1 o2 : world (V:=V) (U:=U) -> outcome R) c l ret c' :
  (forall u, o1 (c, u) = o2 (c, u)) -> runs o1 c l ret c' -> runs o2 c l ret c'.
Proof. intros E H u. by rewrite <- E. Qed.
Lemma runs_nil {R} (o : world (V:=V) (U:=U) -> outcome R) c ret c' :
  (forall u, o (c, u) = Ok (ret c' u)) -> runs o c [] ret c'.
Proof. intros E u. rewrite E. done. Qed.

Lemma with_lists_same s : with_lists (q_lst s) (q_pin s) (q_def s) s = s.
Proof. by destruct s. Qed.

Lemma total_unlink s l p e d :
  all_elems s ≡ₚ e :: l ++ p ++ d -> total (with_lists l p d s) = total s - e_units e.
Proof.
  intros E. unfold total. rewrite E. unfold all_elems. cbn [with_lists q_lst q_pin q_def fmap list_fmap].
  rewrite sum_Z_cons. lia.
Qed.

Lemma gc_runs La : forall n c s Lb P D, Abs c s (La ++ Lb) P D -> (length La < n)%nat ->
  exists c' L' D',
    runs (gc passive n (last La.*1)) c (kv <$> (evict (q_max s) (total s) (rev La.*2)).2) pair c' /\
    Abs c' (with_lists (rev (evict (q_max s) (total s) (rev La.*2)).1 ++ Lb.*2) (q_pin s) (q_def s) s) L' P D'.
Proof.
  induction La as [|[id e] La IH] using rev_ind; intros n c s Lb P D A Hn; (destruct n as [|n]; [lia|]).
  - exists c, Lb, D. csimpl. split.
    + apply runs_nil. intros u. cbn [gc fst snd]. by destruct (Overfull c).
    + replace (Lb.*2) with (q_lst s) by apply (ab_lst (proj1 A)). rewrite with_lists_same. exact A.
  - rewrite !fmap_app, rev_app_distr. csimpl. rewrite last_snoc.
    assert (Ho : Overfull c = (q_max s <? total s)).
    { unfold Overfull. by rewrite (ab_max (proj1 A)), (ab_units (proj1 A)). }
    destruct (q_max s <? total s) eqn:Eo.
    2:{ cbn [fst snd]. exists c, ((La ++ [(id, e)]) ++ Lb), D. split.
        - apply runs_nil. intros u. cbn [gc fst]. by rewrite Ho.
        - replace (rev (e :: rev La.*2) ++ Lb.*2) with (q_lst s); [by rewrite with_lists_same|].
          rewrite (ab_lst (proj1 A)), !fmap_app. cbn [rev]. rewrite rev_involutive. done. }
    assert (Hh : l_heap c !! id = Some e).
    { apply (core_look _ _ (proj1 A)). apply elem_of_app. left. apply elem_of_app. left. apply elem_of_app. right. left. }
    assert (Hprev : prev_of id c = Ok (last La.*1)).
    { unfold prev_of. rewrite (ab_list (proj1 A)), <- app_assoc. cbn [app]. rewrite fmap_app. csimpl.
      rewrite prev_in_app; [by destruct (last La.*1)|].
      pose proof (core_ids (proj1 A)) as N. rewrite !fmap_app in N. rewrite <- !app_assoc in N. apply NoDup_app in N as (_ & N & _).
      intros H. apply (N id H). left. }
    assert (Ht : l_table c !! e_key e = Some id).
    { apply (abs_tab _ _ A). exists e. split; [|done]. apply elem_of_app. left. apply elem_of_app. left. apply elem_of_app. right. left. }
    rewrite app_length in Hn. cbn in Hn.
    destruct (e_pin e =? 0) eqn:Ep.
    + assert (A' : Abs c s (La ++ (id, e) :: Lb) P D) by (rewrite <- app_assoc in A; exact A).
      destruct (remove_lst La id e Lb A') as (c1 & D1 & R1 & A1).
      rewrite Ep in R1. unfold unlinked in A1. rewrite Ep in A1.
      destruct (IH n c1 _ Lb P D1 A1) as (c2 & L2 & D2 & R2 & A2); [lia|].
      assert (Et : total (with_lists (La ++ Lb).*2 P.*2 (q_def s) s) = total s - e_units e).
      { apply total_unlink. unfold all_elems. rewrite (ab_lst (proj1 A')), (ab_pin (proj1 A')), !fmap_app.
        csimpl. rewrite <- !app_assoc. cbn [app]. by rewrite <- Permutation_middle. }
      rewrite Et in R2, A2. cbn [with_lists q_max q_pin q_def] in R2, A2.
      exists c2, L2, D2. split.
      * csimpl.
        eapply runs_ext; [|eapply (runs_bind R1 R2)].
        intros u. cbn [gc fst snd]. rewrite Ho. unfold load. rewrite Hh. cbn [obind]. rewrite Hprev. cbn [obind].
        rewrite Ep. rewrite Ht, bool_decide_true by done. cbn [assert_ obind].
        unfold Remove. cbn [fst snd]. rewrite Ht. unfold RemoveElem, load. cbn [fst snd]. cbn [set_table l_heap].
        rewrite Hh. cbn [obind]. apply Z.eqb_eq in Ep. rewrite Ep. done.
      * cbn [fst]. rewrite <- (ab_pin (proj1 A')) in A2. exact A2.
    + assert (A' : Abs c s (La ++ (id, e) :: Lb) P D) by (rewrite <- app_assoc in A; exact A).
      destruct (IH n c s _ P D A') as (c2 & L2 & D2 & R2 & A2); [lia|].
      exists c2, L2, D2. cbn [fst snd]. split.
      * eapply runs_ext; [|exact R2].
        intros u. cbn [gc fst snd]. rewrite Ho. unfold load. rewrite Hh. cbn [obind]. rewrite Hprev. cbn [obind].
        rewrite Ep. done.
      * cbn [rev]. rewrite <- app_assoc. exact A2.
Qed.


(** ** Expiry *)
Fixpoint expire (thr : Z) (r : list (elem V)) : list (elem V) * list (elem V) :=
  match r with
  | [] => ([], [])
  | e :: r' => if e_last e <? thr then let p := expire thr r' in (p.1, e :: p.2) else (r, [])
  end.
Definition dead (l : list (elem V)) : list (elem V) := filter (fun e => e_pin e = 0) l.
Local Arguments dead : simpl never.
Fixpoint detached (l d : list (elem V)) : list (elem V) :=
  match l with [] => d | e :: l' => detached l' (unlinked e d) end.

Lemma dead_cons e l : kv <$> dead (e :: l) = (if e_pin e =? 0 then [kv e] else []) ++ (kv <$> dead l).
Proof.
  unfold dead. destruct (e_pin e =? 0) eqn:E.
  - apply Z.eqb_eq in E. by rewrite filter_cons_True.
  - apply Z.eqb_neq in E. by rewrite filter_cons_False.
Qed.
Lemma detached_perm l d : detached l d ≡ₚ filter (fun e => e_pin e <> 0) l ++ d.
Proof.
  revert d. induction l as [|e l IH]; intros d; [done|]. cbn [detached]. rewrite IH. unfold unlinked.
  destruct (e_pin e =? 0) eqn:E.
  - apply Z.eqb_eq in E. rewrite filter_cons_False; [done|]. intros H. by apply H.
  - apply Z.eqb_neq in E. rewrite filter_cons_True by done. cbn [app]. symmetry. apply Permutation_middle.
Qed.
Lemma with_lists_idem l p d l' p' d' s : with_lists l p d (with_lists l' p' d' s) = with_lists l p d s.
Proof. done. Qed.

Definition newer (a b : elem V) : Prop := e_last b <= e_last a.

Lemma SSorted_app_inv {A} (R : A -> A -> Prop) (l1 l2 : list A) :
  StronglySorted R (l1 ++ l2) -> StronglySorted R l1 /\ StronglySorted R l2 /\ (forall x y, x ∈ l1 -> y ∈ l2 -> R x y).
Proof.
  induction l1 as [|a l1 IH]; cbn [app]; intros H.
  - split; [constructor|]. split; [done|]. intros x y Hx. by apply elem_of_nil in Hx.
  - inversion H as [|? ? H1 H2]; subst. destruct (IH H1) as (I1 & I2 & I3). rewrite Forall_app in H2. destruct H2 as [H2 H3].
    split; [by constructor|]. split; [done|]. intros x y Hx Hy. apply elem_of_cons in Hx as [->|Hx]; [|by apply I3].
    rewrite Forall_forall in H3. by apply H3.
Qed.
Lemma SSorted_app {A} (R : A -> A -> Prop) (l1 l2 : list A) :
  StronglySorted R l1 -> StronglySorted R l2 -> (forall x y, x ∈ l1 -> y ∈ l2 -> R x y) -> StronglySorted R (l1 ++ l2).
Proof.
  intros H1 H2 H. induction H1 as [|a l1 H1 IH F]; cbn [app]; [done|]. constructor.
  - apply IH. intros x y Hx. apply H. by right.
  - apply Forall_app. split; [done|]. rewrite Forall_forall. intros y Hy. apply H; [left|done].
Qed.

Lemma idle_runs thr La : forall n c s P D last0, Abs c s La P D -> (length La < n)%nat ->
  StronglySorted newer La.*2 -> (forall e, e ∈ La.*2 -> last0 <= e_last e + 1) ->
  exists c' L' D',
    runs (idle_loop passive n thr last0 (last La.*1)) c (kv <$> dead (expire thr (rev La.*2)).2) pair c' /\
    Abs c' (with_lists (rev (expire thr (rev La.*2)).1) (q_pin s) (detached (expire thr (rev La.*2)).2 (q_def s)) s) L' P D'.
Proof.
  induction La as [|[id e] La IH] using rev_ind; intros n c s P D last0 A Hn S Hl; (destruct n as [|n]; [lia|]).
  - exists c, [], D. csimpl. split.
    + apply runs_nil. intros u. done.
    + replace [] with (q_lst s) at 1 by apply (ab_lst (proj1 A)). rewrite with_lists_same. exact A.
  - rewrite !fmap_app, rev_app_distr. csimpl. rewrite last_snoc.
    assert (Hh : l_heap c !! id = Some e).
    { apply (core_look _ _ (proj1 A)). apply elem_of_app. left. apply elem_of_app. right. left. }
    destruct (e_last e <? thr) eqn:Ee.
    2:{ cbn [fst snd]. exists c, (La ++ [(id, e)]), D. split.
        - apply runs_nil. intros u. cbn [idle_loop fst]. unfold load. rewrite Hh. cbn [obind]. by rewrite Ee.
        - replace (rev (e :: rev La.*2)) with (q_lst s); [cbn [detached]; by rewrite with_lists_same|].
          rewrite (ab_lst (proj1 A)), !fmap_app. cbn [rev]. rewrite rev_involutive. done. }
    assert (Hprev : prev_of id c = Ok (last La.*1)).
    { unfold prev_of. rewrite (ab_list (proj1 A)). rewrite fmap_app. csimpl.
      rewrite prev_in_app; [by destruct (last La.*1)|].
      pose proof (core_ids (proj1 A)) as N. rewrite !fmap_app in N. rewrite <- !app_assoc in N. apply NoDup_app in N as (_ & N & _).
      intros H. apply (N id H). left. }
    rewrite app_length in Hn. cbn in Hn. rewrite fmap_app in S, Hl. csimpl in S. csimpl in Hl.
    apply SSorted_app_inv in S as (S1 & _ & S3).
    assert (He : e ∈ La.*2 ++ [e]) by (apply elem_of_app; right; left).
    destruct (remove_lst La id e [] A) as (c1 & D1 & R1 & A1). rewrite app_nil_r in A1.
    destruct (IH n c1 _ P D1 (e_last e) A1) as (c2 & L2 & D2 & R2 & A2); [lia|done| |].
    { intros x Hx. specialize (S3 x e Hx ltac:(left)). unfold newer in S3. lia. }
    cbn [with_lists q_pin q_def] in R2, A2.
    exists c2, L2, D2. split.
    + cbn [snd]. rewrite dead_cons. eapply runs_ext; [|eapply (runs_bind R1 R2)].
      intros u. cbn [idle_loop fst]. unfold load. rewrite Hh. cbn [obind]. rewrite Ee.
      assert (Hl0 : last0 <=? e_last e + 1 = true) by (apply Z.leb_le; by apply Hl). rewrite Hl0. cbn [assert_ obind].
      rewrite Hprev. cbn [obind].
      assert (Hp : (e_pin e =? 0) || negb (l_lru c) = true).
      { destruct (l_lru c) eqn:El; [|by rewrite orb_true_r]. rewrite (ab_lru (proj1 A)) in El.
        pose proof (ab_lstpin (proj1 A) El) as F. rewrite Forall_forall in F. rewrite (F e); [done|].
        rewrite (ab_lst (proj1 A)), fmap_app. exact He. }
      rewrite Hp. cbn [assert_ obind]. done.
    + cbn [detached]. rewrite <- (ab_pin (proj1 A)) in A2. exact A2.
Qed.

(** ** RemoveUnpinned *)
Lemma unpinned_runs Lb : forall n c s La P D, Abs c s (La ++ Lb) P D -> (length Lb < n)%nat ->
  exists c' L' D',
    runs (unpinned_loop passive n (head Lb.*1)) c (kv <$> dead Lb.*2) pair c' /\
    Abs c' (with_lists (La.*2 ++ filter (fun e => e_pin e <> 0) Lb.*2) (q_pin s) (q_def s) s) L' P D'.
Proof.
  induction Lb as [|[id e] Lb IH]; intros n c s La P D A Hn; (destruct n as [|n]; [cbn in Hn; lia|]).
  - exists c, La, D. csimpl. rewrite app_nil_r. split.
    + apply runs_nil. intros u. done.
    + rewrite app_nil_r in A. rewrite <- (ab_lst (proj1 A)). rewrite with_lists_same. exact A.
  - csimpl.
    assert (Hh : l_heap c !! id = Some e).
    { apply (core_look _ _ (proj1 A)). apply elem_of_app. left. apply elem_of_app. right. left. }
    assert (Hnext : next_in id (l_list c) = Ok (head Lb.*1)).
    { rewrite (ab_list (proj1 A)). rewrite fmap_app. csimpl. apply next_in_app.
      pose proof (core_ids (proj1 A)) as N. rewrite !fmap_app in N. rewrite <- !app_assoc in N. apply NoDup_app in N as (_ & N & _).
      intros H. apply (N id H). left. }
    cbn in Hn.
    destruct (e_pin e =? 0) eqn:Ep.
    + destruct (remove_lst La id e Lb A) as (c1 & D1 & R1 & A1). rewrite Ep in R1. unfold unlinked in A1. rewrite Ep in A1.
      destruct (IH n c1 _ La P D1 A1) as (c2 & L2 & D2 & R2 & A2); [lia|].
      cbn [with_lists q_pin q_def] in R2, A2. exists c2, L2, D2. split.
      * rewrite dead_cons, Ep. eapply runs_ext; [|eapply (runs_bind R1 R2)].
        intros u. cbn [unpinned_loop fst]. unfold load. rewrite Hh. cbn [obind]. rewrite Hnext. cbn [obind]. rewrite Ep. done.
      * apply Z.eqb_eq in Ep. rewrite filter_cons_False by (intros H; by apply H).
        rewrite <- (ab_pin (proj1 A)) in A2. exact A2.
    + assert (A' : Abs c s ((La ++ [(id, e)]) ++ Lb) P D) by (rewrite <- app_assoc; exact A).
      destruct (IH n c s _ P D A') as (c2 & L2 & D2 & R2 & A2); [lia|].
      exists c2, L2, D2. split.
      * rewrite dead_cons, Ep. cbn [app]. eapply runs_ext; [|exact R2].
        intros u. cbn [unpinned_loop fst]. unfold load. rewrite Hh. cbn [obind]. rewrite Hnext. cbn [obind]. rewrite Ep. done.
      * apply Z.eqb_neq in Ep. rewrite filter_cons_True by done.
        rewrite fmap_app in A2. csimpl in A2. rewrite <- app_assoc in A2. exact A2.
Qed.

(** ** RemoveAll *)
Lemma perm_cons_split {A} (x : A) (l l1 l2 : list A) : x :: l ≡ₚ l1 ++ l2 ->
  (exists a b, l1 = a ++ x :: b /\ l ≡ₚ (a ++ b) ++ l2) \/ (exists a b, l2 = a ++ x :: b /\ l ≡ₚ l1 ++ a ++ b).
Proof.
  intros E. assert (H : x ∈ l1 ++ l2) by (rewrite <- E; left).
  apply elem_of_app in H as [H|H]; apply elem_of_list_split in H as (a & b & ->).
  - left. exists a, b. split; [done|]. apply (@Permutation_cons_inv _ _ _ x). rewrite E, <- !app_assoc. cbn. by rewrite <- Permutation_middle.
  - right. exists a, b. split; [done|]. apply (@Permutation_cons_inv _ _ _ x). rewrite E. rewrite !app_assoc. by rewrite <- Permutation_middle.
Qed.

Lemma tab_cons_inv k id T (R : list (nat * elem V)) : (k, id) :: T ≡ₚ tab R ->
  exists e R', R ≡ₚ (id, e) :: R' /\ e_key e = k /\ T ≡ₚ tab R'.
Proof.
  intros E. assert (H : (k, id) ∈ tab R) by (rewrite <- E; left).
  unfold tab in H. apply elem_of_list_fmap in H as ([i e] & X & H). cbn in X. simplify_eq.
  apply elem_of_list_split in H as (a & b & ->). exists e, (a ++ b).
  split; [symmetry; apply Permutation_middle|]. split; [done|].
  apply (@Permutation_cons_inv _ _ _ (e_key e, i)). rewrite E. unfold tab. rewrite !fmap_app. csimpl. symmetry. apply Permutation_middle.
Qed.

Lemma removeall_runs T : forall c s L P D, Core c s L P D -> T ≡ₚ tab (L ++ P) ->
  exists c' es D', es ≡ₚ cached_elems s /\
    runs (remove_each passive T) c (kv <$> dead es) pair c' /\
    Core c' (with_lists [] [] (detached es (q_def s)) s) [] [] D'.
Proof.
  induction T as [|[k id] T IH]; intros c s L P D A ET.
  - assert (L = [] /\ P = []) as [-> ->].
    { apply Permutation_nil in ET. unfold tab in ET. apply fmap_nil_inv in ET. by apply app_nil in ET. }
    exists c, [], D. split; [|split].
    + unfold cached_elems. by rewrite (ab_lst A), (ab_pin A).
    + apply runs_nil. done.
    + cbn [detached]. replace (with_lists [] [] (q_def s) s) with s; [done|].
      pose proof (ab_lst A) as X1. pose proof (ab_pin A) as X2. cbn in X1, X2. destruct s; cbn in *; by subst.
  - destruct (tab_cons_inv _ ET) as (e & R & ER & Ek & ETR).
    assert (exists L' P', L ++ P ≡ₚ (id, e) :: L' ++ P' /\ filter (fun x => x <> id) L.*1 = L'.*1 /\ L' ⊆ L /\ P' ⊆ P) as (L' & P' & E1 & E2 & E3 & E4).
    { symmetry in ER. destruct (perm_cons_split _ _ ER) as [(a & b & -> & Er)|(a & b & -> & Er)].
      - exists (a ++ b), P. split; [|split; [|split; [|done]]].
        + rewrite <- !app_assoc. cbn. symmetry. apply Permutation_middle.
        + pose proof (core_ids A) as N. rewrite !fmap_app in *. csimpl in *.
          apply filter_neq. rewrite <- !app_assoc in N. cbn [app] in N. rewrite app_comm_cons, app_assoc in N.
          by apply NoDup_app in N as [N _].
        + intros x Hx. apply elem_of_app in Hx. apply elem_of_app. destruct Hx as [Hx|Hx]; [by left|right; by apply elem_of_list_further].
      - exists L, (a ++ b). split; [|split; [|split; [done|]]].
        + rewrite !app_assoc. symmetry. apply Permutation_middle.
        + apply filter_notin. eapply core_unlinked; [apply A|]. apply elem_of_app. left. apply elem_of_app. right. left.
        + intros x Hx. apply elem_of_app in Hx. apply elem_of_app. destruct Hx as [Hx|Hx]; [by left|right; by apply elem_of_list_further]. }
    destruct (removeelem A E1 E2 E3 E4) as (c1 & R1 & A1 & _).
    destruct (IH c1 _ L' P' _ A1) as (c2 & es & D2 & Ees & R2 & A2).
    { rewrite ETR. apply tab_perm. apply (@Permutation_cons_inv _ _ _ (id, e)). by rewrite <- ER. }
    exists c2, (e :: es), D2. split; [|split].
    + rewrite Ees. unfold cached_elems. cbn [with_lists q_lst q_pin]. rewrite (ab_lst A), (ab_pin A), <- !fmap_app, E1. done.
    + rewrite dead_cons. eapply runs_ext; [|exact (runs_bind R1 R2)]. done.
    + cbn [detached]. cbn [with_lists q_def] in A2. unfold unlinked. rewrite (ab_def A). exact A2.
Qed.

(** ** Clear *)
Lemma clear_runs T : forall c R, map_to_list (l_heap c) ≡ₚ R -> T ≡ₚ tab R -> Forall (fun p => e_pin p.2 = 0) R ->
  exists es un, es ≡ₚ R.*2 /\ runs (discard_each passive T) c (kv <$> es) pair (set_heap ∅ (set_units un c)).
Proof.
  induction T as [|[k id] T IH]; intros c R EH ET Z0.
  - apply Permutation_nil in ET. unfold tab in ET. apply fmap_nil_inv in ET. subst R. exists [], (l_units c). split; [done|].
    apply Permutation_nil_r in EH. apply map_to_list_empty_iff in EH.
    apply runs_nil. intros u. cbn. destruct c; cbn in *. by subst.
  - destruct (tab_cons_inv _ ET) as (e & R' & ER & Ek & ETR).
    assert (Hh : l_heap c !! id = Some e) by (apply elem_of_map_to_list; rewrite EH, ER; left).
    rewrite ER in Z0. apply Forall_cons in Z0 as [Z0 Z1]. cbn in Z0.
    pose proof (discard_runs c id Hh Z0) as R1.
    destruct (IH (set_heap (delete id (l_heap c)) (set_units (l_units c - e_units e) c)) R') as (es & un & Ees & R2); [|done|done|].
    { cbn [set_heap l_heap]. apply (@Permutation_cons_inv _ _ _ (id, e)). rewrite map_to_list_delete by done. by rewrite EH. }
    exists (e :: es), un. split; [rewrite ER; csimpl; by rewrite Ees|].
    eapply runs_ext; [|exact (runs_bind R1 R2)]. done.
Qed.

(** ** In-place updates of a cached element *)
Lemma update_cached c s L P D id e e' L' P' R un pi : Abs c s L P D ->
  L ++ P ≡ₚ (id, e) :: R -> L' ++ P' ≡ₚ (id, e') :: R ->
  e_key e' = e_key e -> e_value e' = e_value e -> 0 <= e_pin e' -> 0 <= e_units e' ->
  (q_lru s = true -> Forall (fun x => e_pin x = 0) L'.*2) -> Forall (fun x => 0 < e_pin x) P'.*2 -> (q_lru s = false -> P' = []) ->
  un = l_units c - e_units e + e_units e' ->
  pi = l_pinned c - (if 0 <? e_pin e then e_units e else 0) + (if 0 <? e_pin e' then e_units e' else 0) ->
  Abs (Lru (<[id := e']> (l_heap c)) (l_next_id c) (l_table c) (l_defer c) L'.*1 un (l_max c) pi (l_idle c) (l_lru c) (l_tick c))
    (with_lists L'.*2 P'.*2 (q_def s) s) L' P' D.
Proof.
  intros [A T] E E' Ek Ev Hp Hu F1 F2 F3 Eun Epi.
  assert (EH : L ++ P ++ D ≡ₚ (id, e) :: R ++ D) by (rewrite app_assoc, E; done).
  assert (EH' : L' ++ P' ++ D ≡ₚ (id, e') :: R ++ D) by (rewrite app_assoc, E'; done).
  assert (Hh : l_heap c !! id = Some e) by (apply (core_look _ _ A); rewrite EH; left).
  assert (Hall : all_elems s ≡ₚ e :: R.*2 ++ D.*2).
  { unfold all_elems. rewrite (ab_lst A), (ab_pin A), (ab_def A), <- !fmap_app, EH. done. }
  assert (Hall' : L'.*2 ++ P'.*2 ++ D.*2 ≡ₚ e' :: R.*2 ++ D.*2) by (rewrite <- !fmap_app, EH'; done).
  assert (Hc : cached_elems s ≡ₚ e :: R.*2).
  { unfold cached_elems. rewrite (ab_lst A), (ab_pin A), <- !fmap_app, E. done. }
  split; [|cbn [l_table]; rewrite T, (tab_perm E), (tab_perm E'); unfold tab; csimpl; by rewrite Ek].
  constructor; cbn [l_heap l_next_id l_table l_defer l_list l_units l_max l_pinned l_idle l_lru l_tick
                        with_lists q_lst q_pin q_def q_max q_idle q_lru q_tick]; try (by apply A); try reflexivity; try done.
  - rewrite <- insert_delete_insert. rewrite map_to_list_insert by (apply lookup_delete). rewrite EH'. constructor.
    apply (@Permutation_cons_inv _ _ _ (id, e)). rewrite map_to_list_delete by done. by rewrite (ab_heap A).
  - pose proof (ab_next A) as N. rewrite EH in N. apply Forall_cons in N as [N1 N2]. rewrite EH'. by apply Forall_cons.
  - rewrite Eun, (ab_units A). unfold total, all_elems at 2. cbn [with_lists q_lst q_pin q_def]. rewrite (ab_def A), Hall, Hall'.
    csimpl. rewrite !sum_Z_cons. lia.
  - rewrite Epi, (ab_pinned A), (pinned_part_perm Hc), pinned_part_cons. unfold cached_elems. cbn [with_lists q_lst q_pin].
    rewrite <- fmap_app. assert (X : (L' ++ P').*2 ≡ₚ e' :: R.*2) by (rewrite E'; done). rewrite (pinned_part_perm X), pinned_part_cons. lia.
  - intros Q. by rewrite (F3 Q).
  - pose proof (ab_pos A) as N. rewrite Hall in N. apply Forall_cons in N as [_ N]. unfold all_elems. cbn [with_lists q_lst q_pin q_def].
    rewrite (ab_def A), Hall'. by apply Forall_cons.
  - pose proof (ab_vals A) as N. rewrite Hall in N. unfold all_elems. cbn [with_lists q_lst q_pin q_def].
    rewrite (ab_def A), Hall'. csimpl in *. by rewrite Ev.
Qed.

(** ** Updates of a detached element *)
Lemma update_deferred c s L P Da id e Db e' un : Abs c s L P (Da ++ (id, e) :: Db) ->
  e_key e' = e_key e -> e_value e' = e_value e -> 0 < e_pin e' -> 0 <= e_units e' ->
  un = l_units c - e_units e + e_units e' ->
  Abs (Lru (<[id := e']> (l_heap c)) (l_next_id c) (l_table c) (l_defer c) (l_list c) un (l_max c) (l_pinned c) (l_idle c) (l_lru c) (l_tick c))
    (with_lists (q_lst s) (q_pin s) (Da.*2 ++ e' :: Db.*2) s) L P (Da ++ (id, e') :: Db).
Proof.
  intros [A T] Ek Ev Hp Hu Eun.
  assert (EH : L ++ P ++ Da ++ (id, e) :: Db ≡ₚ (id, e) :: (L ++ P) ++ Da ++ Db).
  { rewrite <- Permutation_middle, <- !app_assoc. symmetry. rewrite !(app_assoc L P). apply Permutation_middle. }
  assert (EH' : L ++ P ++ Da ++ (id, e') :: Db ≡ₚ (id, e') :: (L ++ P) ++ Da ++ Db).
  { rewrite <- Permutation_middle, <- !app_assoc. symmetry. rewrite !(app_assoc L P). apply Permutation_middle. }
  set (R := (L ++ P) ++ Da ++ Db) in *.
  assert (Hh : l_heap c !! id = Some e) by (apply (core_look _ _ A); rewrite EH; left).
  assert (Hall : all_elems s ≡ₚ e :: R.*2).
  { unfold all_elems. rewrite (ab_lst A), (ab_pin A), (ab_def A), <- !fmap_app, EH. done. }
  assert (Hall' : q_lst s ++ q_pin s ++ Da.*2 ++ e' :: Db.*2 ≡ₚ e' :: R.*2).
  { rewrite (ab_lst A), (ab_pin A). change (e' :: Db.*2) with (((id, e') :: Db).*2). rewrite <- !fmap_app, EH'. done. }
  split; [|done].
  constructor; cbn [l_heap l_next_id l_table l_defer l_list l_units l_max l_pinned l_idle l_lru l_tick
                        with_lists q_lst q_pin q_def q_max q_idle q_lru q_tick]; try (by apply A); try reflexivity; try done.
  - by rewrite fmap_app.
  - rewrite <- insert_delete_insert. rewrite map_to_list_insert by (apply lookup_delete). rewrite EH'. constructor.
    apply (@Permutation_cons_inv _ _ _ (id, e)). rewrite map_to_list_delete by done. by rewrite (ab_heap A).
  - intros k. rewrite (ab_defer A k). unfold of_key. rewrite !filter_app, !fmap_app.
    destruct (decide (e_key e = k)) as [X|X].
    + rewrite !filter_cons_True by (cbn; congruence). done.
    + rewrite !filter_cons_False by (cbn; congruence). done.
  - pose proof (ab_next A) as N. rewrite EH in N. apply Forall_cons in N as [N1 N2]. rewrite EH'. by apply Forall_cons.
  - rewrite Eun, (ab_units A). unfold total, all_elems at 2. cbn [with_lists q_lst q_pin q_def]. rewrite Hall, Hall'.
    csimpl. rewrite !sum_Z_cons. lia.
  - pose proof (ab_defpin A) as N. rewrite (ab_def A), fmap_app in N. csimpl in N. rewrite Forall_app, Forall_cons in *. tauto.
  - pose proof (ab_pos A) as N. rewrite Hall in N. apply Forall_cons in N as [_ N]. unfold all_elems. cbn [with_lists q_lst q_pin q_def].
    rewrite Hall'. apply Forall_cons. split; [lia|done].
  - pose proof (ab_vals A) as N. rewrite Hall in N. unfold all_elems. cbn [with_lists q_lst q_pin q_def].
    rewrite Hall'. csimpl in *. by rewrite Ev.
Qed.

(** ** Ticks and sizes *)
Definition with_tick n (s : ideal V) : ideal V := Ideal (q_lst s) (q_pin s) (q_def s) (q_max s) (q_idle s) (q_lru s) n.
Definition with_max m (s : ideal V) : ideal V := Ideal (q_lst s) (q_pin s) (q_def s) m (q_idle s) (q_lru s) (q_tick s).
Definition with_idle i (s : ideal V) : ideal V := Ideal (q_lst s) (q_pin s) (q_def s) (q_max s) i (q_lru s) (q_tick s).
Lemma abs_tick c s L P D n : Abs c s L P D -> Abs (set_tick n c) (with_tick n s) L P D.
Proof. intros [A T]. split; [|done]. constructor; try apply A. done. Qed.
Lemma abs_max c s L P D n : Abs c s L P D -> Abs (set_max n c) (with_max n s) L P D.
Proof. intros [A T]. split; [|done]. constructor; try apply A. done. Qed.
Lemma abs_idle c s L P D n : Abs c s L P D -> Abs (set_idle n c) (with_idle n s) L P D.
Proof. intros [A T]. split; [|done]. constructor; try apply A. done. Qed.

End sim.
