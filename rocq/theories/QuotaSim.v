(** The cache of the quota aggregator: what each cache operation does to the list of entries, with the deleter that
    calls back into the cache.  Entries are kept by insertion time, pinned ones included. *)
From Verif Require Import Base Proto Signature OpAgg Lru LruSpec LruSim Timeout Agg QuotaAgg QuotaFuel.
From stdpp Require Import gmap list.
Local Open Scope Z_scope.
Set Implicit Arguments.

Notation node := (nat * elem nat)%type.
Definition keys (L : list node) : list string := (fun p => e_key p.2) <$> L.

(** [L] is the recency list with its elements; [J] are elements that were taken out and are about to be freed. *)
Record Shape (mx idle : Z) (J : list node) (c : lru nat) (L : list node) : Prop := {
  sh_list : l_list c = L.*1;
  sh_heap : forall id e, l_heap c !! id = Some e <-> (id, e) ∈ L ++ J;
  sh_table : forall k id, l_table c !! k = Some id <-> exists e, (id, e) ∈ L /\ e_key e = k;
  sh_ids : NoDup (L ++ J).*1;
  sh_keys : NoDup (keys L);
  sh_next : forall id, id ∈ (L ++ J).*1 -> (id < l_next_id c)%nat;
  sh_defer : l_defer c = ∅;
  sh_units : l_units c = Z.of_nat (length L);
  sh_one : Forall (fun p => e_units p.2 = 1) L;
  sh_max : l_max c = mx;
  sh_idle : l_idle c = idle;
  sh_lru : l_lru c = false }.

Section shape.
Variables mx idle : Z.
Notation Shape := (Shape mx idle).

Lemma keys_app L1 L2 : keys (L1 ++ L2) = keys L1 ++ keys L2.
Proof. apply fmap_app. Qed.
Lemma shape_tick J c L n : Shape J c L -> Shape J (set_tick n c) L.
Proof. intros []. by constructor. Qed.
Lemma shape_now J c L : Shape J c L -> Shape J (after_now c) L.
Proof. apply shape_tick. Qed.
Lemma shape_pinned J c L n : Shape J c L -> Shape J (set_pinned n c) L.
Proof. intros []. by constructor. Qed.

Lemma id_inj J c L i e1 e2 : Shape J c L -> (i, e1) ∈ L ++ J -> (i, e2) ∈ L ++ J -> e1 = e2.
Proof. intros S H1%(sh_heap S) H2%(sh_heap S). congruence. Qed.
Lemma shape_load J c L i e : Shape J c L -> (i, e) ∈ L -> load i c = Ok e.
Proof. intros S H. unfold load. assert (l_heap c !! i = Some e) as -> by (apply (sh_heap S); set_solver). done. Qed.
Lemma shape_find J c L i e : Shape J c L -> (i, e) ∈ L -> l_table c !! e_key e = Some i.
Proof. intros S H. apply (sh_table S). eauto. Qed.
Lemma shape_absent J c L k : Shape J c L -> k ∉ keys L -> l_table c !! k = None.
Proof.
  intros S H. destruct (l_table c !! k) as [i|] eqn:E; [|done]. apply (sh_table S) in E as (e & He & <-).
  destruct H. apply elem_of_list_fmap. by exists (i, e).
Qed.
Lemma key_inj J c L p q : Shape J c L -> p ∈ L -> q ∈ L -> e_key p.2 = e_key q.2 -> p = q.
Proof.
  intros S Hp Hq E. destruct p as [i e], q as [j f]. cbn in E.
  pose proof (shape_find S Hp) as H1. pose proof (shape_find S Hq) as H2. rewrite E in H1. assert (i = j) as -> by congruence.
  f_equal. apply (@id_inj J c L j); [exact S|set_solver..].
Qed.

Lemma filter_ids (L1 L2 : list node) i e : NoDup (L1 ++ (i, e) :: L2).*1 ->
  filter (fun x => x <> i) (L1 ++ (i, e) :: L2).*1 = (L1 ++ L2).*1.
Proof.
  intros N. rewrite !fmap_app, fmap_cons in *. cbn [fst] in *. apply NoDup_app in N as (N1 & N2 & N3). apply NoDup_cons in N3 as [N3 N4].
  rewrite filter_app, filter_cons_False by (intros ?; done).
  rewrite !filter_notin; [done|done|]. intros Hx. apply (N2 i Hx). constructor.
Qed.

(** Taking an unpinned element out: what gc and Remove do before they call the deleter. *)
Definition taken (i : nat) (e : elem nat) (c : lru nat) : lru nat :=
  set_units (l_units (Unlink i (set_table (delete (e_key e) (l_table c)) c)) - e_units e)
    (Unlink i (set_table (delete (e_key e) (l_table c)) c)).
Lemma shape_taken J c L1 L2 i e : Shape J c (L1 ++ (i, e) :: L2) -> Shape ((i, e) :: J) (taken i e c) (L1 ++ L2).
Proof.
  intros S. assert ((i, e) ∈ L1 ++ (i, e) :: L2) as Hin by set_solver.
  assert (NoDup (keys (L1 ++ L2)) /\ e_key e ∉ keys (L1 ++ L2)) as [NK Hk].
  { pose proof (sh_keys S) as N. rewrite keys_app in N. rewrite keys_app. cbn in N.
    rewrite (Permutation_app_comm (keys L1)) in N. cbn in N. apply NoDup_cons in N as [N1 N2].
    rewrite Permutation_app_comm in N2. split; [done|]. rewrite elem_of_app in *. tauto. }
  assert (L1 ++ (i, e) :: L2 ++ J ≡ₚ (L1 ++ L2) ++ (i, e) :: J) as P.
  { rewrite <- !Permutation_middle. by rewrite app_assoc. }
  assert ((L1 ++ (i, e) :: L2) ++ J ≡ₚ (L1 ++ L2) ++ (i, e) :: J) as P2 by (rewrite <- P, <- app_assoc; done).
  pose proof (sh_one S) as F. rewrite Forall_app, Forall_cons in F. destruct F as (F1 & F2 & F3). cbn in F2.
  constructor.
  - cbn. rewrite (sh_list S). apply filter_ids. pose proof (sh_ids S) as N. rewrite fmap_app in N. by apply NoDup_app in N as [? _].
  - intros j f. cbn. rewrite (sh_heap S j f). by rewrite P2.
  - intros k j. cbn. rewrite lookup_delete_Some, (sh_table S k j). split.
    + intros [Hne (f & Hf & <-)]. exists f. split; [|done]. rewrite elem_of_app, elem_of_cons in Hf. rewrite elem_of_app.
      destruct Hf as [?|[?|?]]; [by left|congruence|by right].
    + intros (f & Hf & <-). split; [|exists f; split; [|done]; set_solver]. intros E. apply Hk. rewrite E. apply elem_of_list_fmap. by exists (j, f).
  - rewrite <- P2. apply (sh_ids S).
  - done.
  - intros j Hj. cbn. apply (sh_next S). by rewrite P2.
  - apply (sh_defer S).
  - cbn. rewrite (sh_units S), !app_length, F2. cbn [length]. lia.
  - by apply Forall_app.
  - apply (sh_max S).
  - apply (sh_idle S).
  - apply (sh_lru S).
Qed.
(** delete of the element object. *)
Definition buried (i : nat) (c : lru nat) : lru nat := set_heap (delete i (l_heap c)) c.
Lemma shape_buried J c L i e : Shape ((i, e) :: J) c L -> Shape J (buried i c) L /\ is_Some (l_heap c !! i).
Proof.
  intros S. assert (L ++ (i, e) :: J ≡ₚ (i, e) :: L ++ J) as P by (by rewrite Permutation_middle).
  pose proof (sh_ids S) as N. rewrite P in N. apply NoDup_cons in N as [N1 N2]. cbn in N1. split.
  - constructor; try apply S.
    + intros j f. cbn. rewrite lookup_delete_Some, (sh_heap S j f), P, elem_of_cons. split.
      * intros [Hne [?|?]]; [congruence|done].
      * intros Hf. split; [|by right]. intros <-. apply N1. apply elem_of_list_fmap. by exists (i, f).
    + done.
    + intros j Hj. cbn. apply (sh_next S). rewrite P. cbn. by apply elem_of_cons; right.
  - exists e. apply (sh_heap S). rewrite P. constructor.
Qed.
(** A new pinned element at the front. *)
Definition pushed (k : string) (v : nat) (t : Z) (c : lru nat) : lru nat :=
  Lru (<[l_next_id c := Elem k v 1 1 t]> (l_heap c)) (S (l_next_id c)) (<[k := l_next_id c]> (l_table c)) (l_defer c)
    (l_next_id c :: l_list c) (l_units c + 1) (l_max c) (l_pinned c + 1) (l_idle c) (l_lru c) (S (l_tick c)).
Lemma shape_pushed J c L k v t : Shape J c L -> k ∉ keys L -> Shape J (pushed k v t c) ((l_next_id c, Elem k v 1 1 t) :: L).
Proof.
  intros S Hk. assert (l_next_id c ∉ (L ++ J).*1) as Hn by (intros H%(sh_next S); lia).
  constructor; cbn.
  - by rewrite (sh_list S).
  - intros j f. rewrite lookup_insert_Some, (sh_heap S j f), elem_of_cons. split.
    + intros [[<- <-]|[? ?]]; [by left|by right].
    + intros [?|H]; [left; by simplify_eq|]. right. split; [|done]. intros <-. apply Hn. apply elem_of_list_fmap. by exists (l_next_id c, f).
  - intros k' j. rewrite lookup_insert_Some, (sh_table S k' j). split.
    + intros [[<- <-]|(Hne & f & ? & ?)]; [eexists; split; [by constructor|done]|exists f; split; [by constructor|done]].
    + intros (f & [?|Hf]%elem_of_cons & <-); [left; by simplify_eq|]. right. split; [|by exists f]. intros ->. apply Hk. apply elem_of_list_fmap. by exists (j, f).
  - apply NoDup_cons. split; [done|]. apply S.
  - apply NoDup_cons. split; [done|]. apply S.
  - intros j [->|H%(sh_next S)]%elem_of_cons; lia.
  - apply S.
  - rewrite (sh_units S). cbn [length]. lia.
  - constructor; [done|]. apply S.
  - apply S. 
  - apply S.
  - apply S.
Qed.
Lemma shape_store J c L1 L2 i e f : Shape J c (L1 ++ (i, e) :: L2) -> e_key f = e_key e -> e_units f = 1 ->
  Shape J (store i f c) (L1 ++ (i, f) :: L2).
Proof.
  intros S Hk Hu.
  assert (forall g, (L1 ++ (i, g) :: L2) ++ J ≡ₚ (i, g) :: L1 ++ L2 ++ J) as P.
  { intros g. rewrite <- app_assoc. cbn. by rewrite <- Permutation_middle. }
  assert (i ∉ (L1 ++ L2 ++ J).*1) as Hn.
  { pose proof (sh_ids S) as N. rewrite P in N. apply NoDup_cons in N as [? _]. done. }
  constructor; cbn; try apply S.
  - rewrite (sh_list S). by rewrite !fmap_app.
  - intros j g. rewrite lookup_insert_Some, (sh_heap S j g), !P, !elem_of_cons. split.
    + intros [[<- <-]|[Hne [?|?]]]; [by left|congruence|by right].
    + intros [?|H]; [left; by simplify_eq|]. right. split; [|by right]. intros <-. apply Hn. apply elem_of_list_fmap. by exists (i, g).
  - intros k j. rewrite (sh_table S k j). split.
    + intros (g & [H|[H|H]%elem_of_cons]%elem_of_app & <-); [exists g; split; [set_solver|done]| |exists g; split; [set_solver|done]].
      simplify_eq. exists f. split; [set_solver|done].
    + intros (g & [H|[H|H]%elem_of_cons]%elem_of_app & <-); [exists g; split; [set_solver|done]| |exists g; split; [set_solver|done]].
      simplify_eq. exists e. split; [set_solver|done].
  - pose proof (sh_ids S) as N. rewrite P in N |- *. done.
  - pose proof (sh_keys S) as N. rewrite keys_app in N |- *. cbn in N |- *. by rewrite Hk.
  - intros j Hj. apply (sh_next S). rewrite P in Hj |- *. done.
  - rewrite (sh_units S), !app_length. done.
  - pose proof (sh_one S) as F. rewrite Forall_app, Forall_cons in F |- *. cbn. tauto.
Qed.
Lemma shape_len J c L : Shape J c L -> Overfull c = (mx <? Z.of_nat (length L)).
Proof. intros S. unfold Overfull. by rewrite (sh_max S), (sh_units S). Qed.

Lemma shape_prev J c L1 L2 i e : Shape J c (L1 ++ (i, e) :: L2) -> prev_of i c = Ok (last L1.*1).
Proof.
  intros S. unfold prev_of. rewrite (sh_list S), fmap_app. cbn. rewrite prev_in_app; [by destruct (last _)|].
  pose proof (sh_ids S) as N. rewrite !fmap_app in N. cbn in N. apply NoDup_app in N as [N _]. apply NoDup_app in N as (_ & N & _).
  intros H. apply (N i H). constructor.
Qed.

Section ops.
Variable clk : nat -> Z.
Context {U : Type}.
Variable del : string -> nat -> world (V:=nat) (U:=U) -> outcome (world (V:=nat) (U:=U)).

Lemma remove_eq J c u L1 L2 i e : Shape J c (L1 ++ (i, e) :: L2) -> e_pin e = 0 ->
  Remove del (e_key e) (c, u) = Discard del i (Unlink i (set_table (delete (e_key e) (l_table c)) c), u).
Proof.
  intros S Hp. assert ((i, e) ∈ L1 ++ (i, e) :: L2) as Hin by set_solver. unfold Remove. cbn [fst snd].
  rewrite (shape_find S Hin). unfold RemoveElem. cbn [fst snd].
  change (load i (set_table _ c)) with (load i c). rewrite (shape_load S Hin). cbn [obind]. by rewrite Hp.
Qed.
Lemma discard_eq J c u L1 L2 i e : Shape J c (L1 ++ (i, e) :: L2) -> e_pin e = 0 ->
  Discard del i (Unlink i (set_table (delete (e_key e) (l_table c)) c), u) =
  (let! w := del (e_key e) (e_value e) (taken i e c, u) in
   match l_heap w.1 !! i with None => UB UseAfterFree | Some _ => Ok (buried i w.1, w.2) end).
Proof.
  intros S Hp. assert ((i, e) ∈ L1 ++ (i, e) :: L2) as Hin by set_solver. unfold Discard. cbn [fst snd].
  change (load i (Unlink _ _)) with (load i c). rewrite (shape_load S Hin). cbn [obind]. rewrite Hp. done.
Qed.
Lemma insert_eq J c u L n k v : Shape J c L -> k ∉ keys L ->
  Lru.Insert del clk n k v 1 (c, u) =
  (let! w := gc del n (list_tail (pushed k v (clk (l_tick c)) c)) (pushed k v (clk (l_tick c)) c, u) in Release del clk k v w).
Proof.
  intros S Hk. unfold Lru.Insert, InsertPinned, Remove. cbn [fst]. rewrite (shape_absent S Hk). cbn [obind fst snd].
  cbn zeta.
  match goal with |- context [if l_lru ?c' then _ else _] => change (l_lru c') with (l_lru c) end. rewrite (sh_lru S).
  unfold LinkFront. match goal with |- context [decide (?x ∈ l_list ?y)] => change (l_list y) with (l_list c) end.
  rewrite decide_False; [done|]. rewrite (sh_list S). intros H.
  assert (l_next_id c < l_next_id c)%nat; [|lia]. apply (sh_next S). rewrite fmap_app. apply elem_of_app. by left.
Qed.
Lemma gc_room J c u L n cur : Shape J c L -> Z.of_nat (length L) <= mx -> gc del (S n) cur (c, u) = Ok (c, u).
Proof. intros S H. cbn [gc]. cbn [fst]. rewrite (shape_len S). destruct (Z.ltb_spec mx (Z.of_nat (length L))); [lia|done]. Qed.

Definition unpinned (i : nat) (e : elem nat) (c : lru nat) : lru nat :=
  set_pinned (l_pinned c - e_units e) (store i (set_pin 0 e) c).
Lemma shape_unpinned J c L1 L2 i e : Shape J c (L1 ++ (i, e) :: L2) -> Shape J (unpinned i e c) (L1 ++ (i, set_pin 0 e) :: L2).
Proof.
  intros S. apply shape_pinned. eapply shape_store; [exact S|done|].
  pose proof (sh_one S) as F. rewrite Forall_app, Forall_cons in F. apply F.
Qed.
Lemma release_eq J c u L1 L2 i e k v : Shape J c (L1 ++ (i, e) :: L2) -> e_pin e = 1 -> e_key e = k -> e_value e = v ->
  Release del clk k v (c, u) =
  if mx <? Z.of_nat (length (L1 ++ (i, e) :: L2)) then Remove del k (unpinned i e c, u) else Ok (unpinned i e c, u).
Proof.
  intros S Hp <- <-. assert ((i, e) ∈ L1 ++ (i, e) :: L2) as Hin by set_solver.
  unfold Release, ReleaseWithOptions. cbn [fst]. rewrite (sh_defer S), lookup_empty. unfold release_cached. cbn [fst snd].
  rewrite (shape_find S Hin), (shape_load S Hin). cbn [obind]. rewrite bool_decide_true by done. cbn [obind assert_].
  rewrite Hp. cbn [obind assert_]. change (0 <? 1) with true. cbn [obind]. rewrite (sh_lru S). cbn [andb]. cbn zeta. rewrite Hp.
  change (1 - 1) with 0. cbn [e_pin set_pin]. change (0 =? 0) with true. cbn [obind].
  change (set_pinned _ (store _ _ c)) with (unpinned i e c).
  pose proof (shape_unpinned _ _ _ _ S) as S2. rewrite (shape_len S2). rewrite !app_length. done.
Qed.
End ops.
End shape.
