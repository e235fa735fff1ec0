(** Proofs about the container helpers. *)
From Verif Require Import Base StlUtil StlUtilSpec.
From stdpp Require Import gmap list.
Local Open Scope Z_scope.

(** ** Deleting *)
Fixpoint delete_all {E} (h : heap E) (l : list nat) : outcome (heap E) :=
  match l with [] => Ok h | a :: l => let! h := delete_object h (Some a) in delete_all h l end.

Lemma delete_all_deletes {E} l (h : heap E) : deletes l h (delete_all h l).
Proof.
  revert h. induction l as [|a l IH]; intros h.
  - left. split. { split; [constructor|]. intros a Ha. set_solver. } exists h. split; [done|]. split; set_solver.
  - cbn. destruct (hp_objects h !! a) as [e|] eqn:Ea; cbn.
    2: { right. split; [|done]. intros [_ Ho]. destruct (Ho a) as [? ?]; [set_solver|]. congruence. }
    destruct (IH (Heap (delete a (hp_objects h)) (hp_next h))) as [[[Hn Ho] (h' & Er & Hd & Hk)]|[Hn Er]].
    + left. cbn in *.
      assert (a ∉ l) as Ha. { intros Hi. destruct (Ho a Hi) as [? E1]. by rewrite lookup_delete in E1. }
      split. { split; [by constructor|]. intros b [->|Hb]%elem_of_cons; [by eauto|]. destruct (Ho b Hb) as [? E1]. apply lookup_delete_Some in E1 as [_ E1]. by eauto. }
      exists h'. split; [done|]. split.
      * intros b [->|Hb]%elem_of_cons; [|by apply Hd]. rewrite Hk by done. apply lookup_delete.
      * intros b Hb. apply not_elem_of_cons in Hb as [? ?]. rewrite Hk by done. by rewrite lookup_delete_ne.
    + right. split; [|done]. intros [Hn' Ho']. apply Hn. apply NoDup_cons in Hn' as [Ha Hn']. split; [done|]. cbn. intros b Hb.
      rewrite lookup_delete_ne by (intros ->; done). apply Ho'. set_solver.
Qed.

Lemma step_delete {E A} reads (h : heap E) p (f : heap E -> outcome A) :
  (let! _ := step_past reads h p in let! h := delete_object h p in f h) = let! h := delete_object h p in f h.
Proof. destruct p as [a|]; [|done]. cbn. destruct reads; [|done]. by destruct (hp_objects h !! a). Qed.

Lemma delete_then {E} (h : heap E) p l : (let! h := delete_object h p in delete_all h l) = delete_all h (pointees [p] ++ l).
Proof. by destruct p. Qed.

Lemma pointees_cons p l : pointees (p :: l) = pointees [p] ++ pointees l.
Proof. by destruct p. Qed.

Lemma elements_all {E} reads l (h : heap E) : STLDeleteContainerPointers reads h l = delete_all h (pointees l).
Proof.
  revert h. induction l as [|p l IH]; intros h; [done|]. cbn [STLDeleteContainerPointers]. rewrite step_delete, pointees_cons, <- delete_then.
  destruct (delete_object h p); cbn; [apply IH|done..].
Qed.
Lemma pairs_all {E} reads l (h : heap E) : STLDeleteContainerPairPointers reads h l = delete_all h (pointees (concat ((fun x => [x.1; x.2]) <$> l))).
Proof.
  revert h. induction l as [|[p q] l IH]; intros h; [done|]. cbn [STLDeleteContainerPairPointers]. rewrite step_delete. cbn [fmap list_fmap concat app fst snd].
  rewrite pointees_cons, <- delete_then. destruct (delete_object h p) as [h'| | |]; [|done..]. cbn [obind]. rewrite pointees_cons, <- delete_then.
  destruct (delete_object h' q); cbn; [apply IH|done..].
Qed.
Lemma firsts_all {E V} reads (l : list (ptr * V)) (h : heap E) : STLDeleteContainerPairFirstPointers reads h l = delete_all h (pointees l.*1).
Proof.
  revert h. induction l as [|[p q] l IH]; intros h; [done|]. cbn [STLDeleteContainerPairFirstPointers]. rewrite step_delete. cbn [fmap list_fmap fst].
  rewrite pointees_cons, <- delete_then. destruct (delete_object h p); cbn; [apply IH|done..].
Qed.
Lemma seconds_all {E K} (l : list (K * ptr)) (h : heap E) : STLDeleteContainerPairSecondPointers h l = delete_all h (pointees l.*2).
Proof.
  revert h. induction l as [|[p q] l IH]; intros h; [done|]. cbn [STLDeleteContainerPairSecondPointers]. cbn [fmap list_fmap snd].
  rewrite pointees_cons, <- delete_then. destruct (delete_object h q); cbn; [apply IH|done..].
Qed.

Lemma range_deletes {E} (h : heap E) :
  (forall reads l, deletes (pointees l) h (STLDeleteContainerPointers reads h l)) /\
  (forall reads l, deletes (pointees (concat ((fun x => [x.1; x.2]) <$> l))) h (STLDeleteContainerPairPointers reads h l)) /\
  (forall V reads (l : list (ptr * V)), deletes (pointees l.*1) h (STLDeleteContainerPairFirstPointers reads h l)) /\
  (forall K (l : list (K * ptr)), deletes (pointees l.*2) h (STLDeleteContainerPairSecondPointers h l)).
Proof.
  split_and!; intros.
  - rewrite elements_all. apply delete_all_deletes.
  - rewrite pairs_all. apply delete_all_deletes.
  - rewrite firsts_all. apply delete_all_deletes.
  - rewrite seconds_all. apply delete_all_deletes.
Qed.

Lemma container_deletes {E} (h : heap E) :
  (forall reads, STLDeleteElements reads h None = Ok (h, None)) /\ (forall K, STLDeleteValues (K := K) h None = Ok (h, None)) /\
  (forall reads l, exists r, deletes (pointees l) h r /\ STLDeleteElements reads h (Some l) = let! h' := r in Ok (h', Some [])) /\
  (forall K (l : list (K * ptr)), exists r, deletes (pointees l.*2) h r /\ STLDeleteValues h (Some l) = let! h' := r in Ok (h', Some [])).
Proof. split_and!; [done..| |]; intros; eexists; (split; [apply range_deletes|done]). Qed.

(** ** Histories of calls on a map *)
Section Histories.
  Context {K : Type} `{Countable K} {V : Type}.
  Implicit Types (cs : list (map_call K V)) (m : gmap K V).

  Lemma map_run_app m cs cs' :
    map_run m (cs ++ cs') = ((map_run (map_run m cs).1 cs').1, (map_run m cs).2 ++ (map_run (map_run m cs).1 cs').2).
  Proof.
    revert m. induction cs as [|c cs IH]; intros m; cbn; [by destruct (map_run m cs')|].
    destruct (map_step m c) as [m1 a]. rewrite IH. destruct (map_run m1 cs). done.
  Qed.
  Lemma map_run_length m cs : length (map_run m cs).2 = length cs.
  Proof. revert m. induction cs as [|c cs IH]; intros m; cbn; [done|]. destruct (map_step m c) as [m1 a]. specialize (IH m1). destruct (map_run m1 cs). cbn in *. lia. Qed.

  Lemma never_snoc cs c k : never (cs ++ [c]) k <-> never cs k /\ forall v, ~ offers c k v.
  Proof.
    unfold never. split.
    - intros Hn. split; [intros d v Hd|intros v]; apply Hn; set_solver.
    - intros [H1 H2] d v Hd. apply elem_of_app in Hd as [Hd|Hd]; [by eapply H1|]. apply elem_of_list_singleton in Hd as ->. apply H2.
  Qed.
  Lemma holds_snoc cs c k v :
    holds (cs ++ [c]) k v <-> c = COrUpdate k v \/ (never cs k /\ offers c k v) \/ (holds cs k v /\ forall w, c <> COrUpdate k w).
  Proof.
    split.
    - intros (pre & d & post & Eq & Ho & Hw & Hl). destruct post as [|x post _] using rev_ind.
      + apply app_inj_tail in Eq as [-> ->]. destruct Hw as [->|Hw]; [by left|]. right. left. done.
      + rewrite app_comm_cons, app_assoc in Eq. apply app_inj_tail in Eq as [-> ->]. right. right. split.
        * exists pre, d, post. split_and!; [done..|]. intros w Hi. apply (Hl w). set_solver.
        * intros w ->. apply (Hl w). set_solver.
    - intros [->|[[Hn Ho]|[(pre & d & post & -> & Ho & Hw & Hl) Hc]]].
      + exists cs, (COrUpdate k v), []. split_and!; [done| |by left|set_solver]. unfold offers. auto.
      + exists cs, c, []. split_and!; [done|done|by right|set_solver].
      + exists pre, d, (post ++ [c]). split; [by rewrite <- app_assoc|]. split_and!; [done..|]. intros w [Hi|Hi]%elem_of_app; [by apply (Hl w)|].
        apply elem_of_list_singleton in Hi. by apply (Hc w).
  Qed.

  Lemma map_state cs k : ((map_run ∅ cs).1 !! k = None <-> never cs k) /\ forall v, (map_run ∅ cs).1 !! k = Some v <-> holds cs k v.
  Proof.
    induction cs as [|c cs IH] using rev_ind.
    - cbn. rewrite lookup_empty. split. { split; [|done]. intros _ c v Hc. set_solver. }
      intros v. split; [done|]. intros (pre & c & post & Eq & _). by destruct pre.
    - rewrite map_run_app. cbn [fst]. set (m := (map_run ∅ cs).1) in *. destruct IH as [IHn IHh].
      assert ((map_run m [c]).1 = (map_step m c).1) as ->. { cbn. by destruct (map_step m c). }
      assert (forall v, m !! k = Some v -> ~ never cs k) as Hx. { intros v Ev Hn. apply IHn in Hn. congruence. }
      rewrite never_snoc.
      setoid_rewrite holds_snoc. setoid_rewrite <- IHh. setoid_rewrite <- IHn. unfold offers. clear IHn IHh Hx.
      destruct c as [k' w|k' w|k' w|k' w|k']; cbn; unfold InsertIfNotPresent, InsertOrUpdate, InsertOrReturnExisting, collection_insert.
      all: try destruct (m !! k') as [x|] eqn:Ek; cbn.
      all: destruct (decide (k' = k)) as [->|Hne]; rewrite ?lookup_insert, ?lookup_insert_ne by done; try rewrite Ek.
      all: split; [|intros v]; split.
      all: try (intros; split; [by auto|]; intros v [?|[?|?]]; congruence).
      all: try (intros [? Hv]; first [done|exfalso; eapply Hv; eauto; fail|idtac]).
      all: naive_solver.
  Qed.

  Lemma map_answers cs i c a : cs !! i = Some c -> (map_run ∅ cs).2 !! i = Some a -> right_answer (take i cs) c a.
  Proof.
    intros Hc Ha. pose proof (take_drop_middle cs i c Hc) as Eq. rewrite <- Eq in Ha. rewrite map_run_app in Ha. cbn [snd] in Ha.
    assert (length (map_run ∅ (take i cs)).2 = i) as El. { rewrite map_run_length, take_length. apply lookup_lt_Some in Hc. lia. }
    rewrite lookup_app_r in Ha by lia. rewrite El, Nat.sub_diag in Ha. cbn in Ha.
    pose proof (map_state (take i cs)) as Hs. set (m := (map_run ∅ (take i cs)).1) in *.
    assert (a = (map_step m c).2) as ->. { destruct (map_step m c) as [m1 b]. destruct (map_run m1 _). cbn in *. congruence. }
    clear Ha El Eq Hc.
    destruct c as [k v|k v|k v|k v|k]; cbn; unfold InsertIfNotPresent, InsertOrUpdate, InsertOrReturnExisting, collection_insert, FindWithDefault, FindOrNull;
      destruct (Hs k) as [Hn Hh]; try setoid_rewrite <- Hh; setoid_rewrite <- Hn; destruct (m !! k) as [x|] eqn:Ek; cbn; eexists; (split; [reflexivity|]); naive_solver.
  Qed.
End Histories.

(** ** LookupOrInsertNew *)
Section Lookups.
  Context {K : Type} `{Countable K} {E : Type}.
  Implicit Types (h : heap E) (m : gmap K ptr) (ks : list (K * E)).

  (** The map has exactly the objects that were made since [h0], each for one key. *)
  Definition made h0 h m : Prop :=
    sound_heap h /\ (hp_next h0 <= hp_next h)%nat /\ (forall k p, m !! k = Some p -> exists a, p = Some a /\ (hp_next h0 <= a)%nat /\ is_Some (hp_objects h !! a)) /\
    (forall k k' a, m !! k = Some (Some a) -> m !! k' = Some (Some a) -> k = k') /\
    (forall a, (exists k, m !! k = Some (Some a)) \/ hp_objects h !! a = hp_objects h0 !! a).

  Lemma lookup_made h0 h m k e : made h0 h m -> exists h' m' a, LookupOrInsertNew h m k e = (h', m', Some a) /\ made h0 h' m' /\ m' !! k = Some (Some a) /\
    (forall k' p, m !! k' = Some p -> m' !! k' = Some p) /\ (forall b x, hp_objects h !! b = Some x -> hp_objects h' !! b = Some x) /\
    (m !! k = None -> hp_objects h' !! a = Some e) /\ (forall k', k <> k' -> m' !! k' = m !! k').
  Proof.
    intros (Hs & Hl & Hp & Hi & Ho). unfold LookupOrInsertNew, collection_insert. unfold made, ptr in *. destruct (m !! k) as [p|] eqn:Ek.
    - destruct (Hp k p Ek) as (a & -> & Ha & Hx). exists h, m, a. split; [cbv beta iota zeta; unfold ptr in *; by rewrite Ek|]. split; [done|]. split_and!; by auto.
    - assert (hp_objects h !! hp_next h = None) as Hf by (apply Hs; lia).
      assert (forall j q, m !! j = Some q -> q <> Some (hp_next h)) as Hq. { intros j q Ej ->. destruct (Hp _ _ Ej) as (a & [= <-] & _ & [? Ea]). congruence. }
      cbn. eexists _, _, _. split; [reflexivity|]. rewrite insert_insert. split; [|split_and!].
      + split_and!; cbn.
        * intros b Hb. cbn in *. rewrite lookup_insert_ne by lia. apply Hs. lia.
        * lia.
        * intros j p Ej. apply lookup_insert_Some in Ej as [[<- <-]|[Hj Ej]]; [eexists; split; [done|]; split; [done|rewrite lookup_insert; by eauto]|].
          destruct (Hp _ _ Ej) as (a & -> & Ha & Hx). exists a. split_and!; [done..|]. rewrite lookup_insert_ne; [done|]. intros <-. by apply (Hq _ _ Ej).
        * intros j j' a Ej Ej'. apply lookup_insert_Some in Ej as [[<- Ea]|[Hj Ej]]; apply lookup_insert_Some in Ej' as [[<- Ea']|[Hj' Ej']].
          -- done.
          -- exfalso. apply (Hq _ _ Ej'). congruence.
          -- exfalso. apply (Hq _ _ Ej). congruence.
          -- by eapply Hi.
        * intros a. destruct (decide (a = hp_next h)) as [->|Hne]. { left. exists k. apply lookup_insert. }
          rewrite lookup_insert_ne by done. destruct (Ho a) as [[j Ej]|Eo]; [|by right]. left. exists j. rewrite lookup_insert_ne; [done|]. intros <-. congruence.
      + apply lookup_insert.
      + intros j p Ej. rewrite lookup_insert_ne; [done|]. intros <-. congruence.
      + intros b x Eb. cbn. rewrite lookup_insert_ne; [done|]. intros <-. congruence.
      + intros _. cbn. apply lookup_insert.
      + intros j Hj. by rewrite lookup_insert_ne.
  Qed.

  Lemma lookups_made ks h0 h m h' m' ps : made h0 h m -> lookup_run h m ks = (h', m', ps) -> made h0 h' m' /\
    (forall k p, m !! k = Some p -> m' !! k = Some p) /\ (forall b x, hp_objects h !! b = Some x -> hp_objects h' !! b = Some x) /\
    Forall2 (fun x p => exists a, p = Some a /\ m' !! x.1 = Some p) ks ps /\
    (forall i k e, ks !! i = Some (k, e) -> m !! k = None -> (forall j x, (j < i)%nat -> ks !! j = Some x -> x.1 <> k) ->
       exists a, ps !! i = Some (Some a) /\ hp_objects h' !! a = Some e).
  Proof.
    unfold ptr in *. revert h m ps. induction ks as [|[k e] ks IH]; intros h m ps Hm Er.
    - cbn in Er. injection Er as <- <- <-. split_and!; [done..|constructor|]. intros i k e Hi. by rewrite lookup_nil in Hi.
    - cbn in Er. destruct (lookup_made h0 h m k e Hm) as (h1 & m1 & a & E1 & Hm1 & Ek & Hk & Hb & Hn & Hne). rewrite E1 in Er.
      destruct (lookup_run h1 m1 ks) as [[h2 m2] l] eqn:E2. injection Er as -> -> <-.
      destruct (IH _ _ _ Hm1 E2) as (Hm2 & Hk2 & Hb2 & Hf2 & Ho2). split_and!; [done|by auto|by auto| |].
      + constructor; [|done]. exists a. cbn. auto.
      + intros [|i] k' e' Hi Hno Hfst; cbn in Hi.
        * injection Hi as -> ->. exists a. split; [done|]. apply Hb2, Hn, Hno.
        * destruct (Ho2 i k' e' Hi) as (b & Hb' & Hob); [| |by exists b].
          -- rewrite Hne; [done|]. apply (Hfst 0%nat (k, e)); [lia|done].
          -- intros j x Hj Hx. apply (Hfst (S j) x); [lia|done].
  Qed.

  Lemma made_start h : sound_heap h -> made h h ∅.
  Proof. intros Hs. split_and!; [done|lia|by intros ?? ?%lookup_empty_Some|by intros ??? ?%lookup_empty_Some|by right]. Qed.

  Lemma lookups_found h ks h' m ps : sound_heap h -> lookup_run h ∅ ks = (h', m, ps) ->
    length ps = length ks /\
    (forall i j k k' e e' p p', ks !! i = Some (k, e) -> ks !! j = Some (k', e') -> ps !! i = Some p -> ps !! j = Some p' -> p <> None /\ (p = p' <-> k = k')) /\
    (forall i k e, ks !! i = Some (k, e) -> (forall j x, (j < i)%nat -> ks !! j = Some x -> x.1 <> k) ->
       exists a, ps !! i = Some (Some a) /\ hp_objects h !! a = None /\ hp_objects h' !! a = Some e).
  Proof.
    unfold ptr in *. intros Hs Er. destruct (lookups_made _ _ _ _ _ _ _ (made_start h Hs) Er) as ((Hs' & Hl & Hp & Hi & Ho) & _ & _ & Hf & Hv). split_and!.
    - symmetry. by apply Forall2_length in Hf.
    - intros i j k k' e e' p p' H1 H2 H3 H4. destruct (Forall2_lookup_lr _ _ _ _ _ _ Hf H1 H3) as (a & -> & Ea). destruct (Forall2_lookup_lr _ _ _ _ _ _ Hf H2 H4) as (a' & -> & Ea').
      cbn in *. split; [done|]. split; [|congruence]. intros [= <-]. by eapply Hi.
    - intros i k e Hki Hfst. destruct (Hv i k e Hki (lookup_empty k) Hfst) as (a & Ha & Hx). exists a. split_and!; [done| |done].
      destruct (Forall2_lookup_lr _ _ _ _ _ _ Hf Hki Ha) as (b & [= <-] & Eb). destruct (Hp _ _ Eb) as (b & [= <-] & Hge & _). by apply Hs.
  Qed.

  Lemma lookups_deleted h ks h' m ps l : sound_heap h -> lookup_run h ∅ ks = (h', m, ps) -> l ≡ₚ map_to_list m ->
    exists h2, STLDeleteValues h' (Some l) = Ok (h2, Some []) /\ hp_objects h2 = hp_objects h.
  Proof.
    unfold ptr in *. intros Hs Er El. destruct (lookups_made _ _ _ _ _ _ _ (made_start h Hs) Er) as ((Hs' & Hl & Hp & Hi & Ho) & _ & _ & _ & _).
    assert (forall a, a ∈ pointees l.*2 <-> exists k, m !! k = Some (Some a)) as Hin.
    { intros a. unfold pointees. rewrite elem_of_list_omap. setoid_rewrite elem_of_list_fmap. split.
      - intros (p & ([k q] & -> & Hkq) & Ep). cbn in Ep. rewrite El in Hkq. apply elem_of_map_to_list in Hkq. exists k. congruence.
      - intros [k Ek]. exists (Some a). split; [|done]. exists (k, Some a). split; [done|]. rewrite El. by apply elem_of_map_to_list. }
    assert (NoDup l) as Hnd by (rewrite El; apply NoDup_map_to_list).
    assert (forall x, x ∈ l -> m !! x.1 = Some x.2) as Hml. { intros [k q] Hx. rewrite El in Hx. by apply elem_of_map_to_list in Hx. }
    unfold STLDeleteValues. destruct (proj2 (proj2 (proj2 (range_deletes h'))) K l) as [[_ (h2 & Eh & Hd & Hk)]|[Hno _]].
    - rewrite Eh. cbn. exists h2. split; [done|]. apply map_eq. intros a. destruct (decide (a ∈ pointees l.*2)) as [Ha|Ha].
      + rewrite Hd by done. symmetry. apply Hin in Ha as [k Ek]. destruct (Hp _ _ Ek) as (b & [= <-] & Hge & _). by apply Hs.
      + rewrite Hk by done. destruct (Ho a) as [Hx|Hx]; [|done]. exfalso. apply Ha, Hin, Hx.
    - exfalso. apply Hno. split.
      + clear Hin El Hno Er. induction l as [|[k q] l IH]; [constructor|]. cbn [fmap list_fmap snd]. rewrite pointees_cons.
        assert (m !! k = Some q) as Ek by (apply (Hml (k, q)); set_solver). destruct (Hp _ _ Ek) as (a & -> & _ & _). cbn. apply NoDup_cons in Hnd as [Hni Hnd].
        constructor; [|apply IH; [done|intros x Hx; apply Hml; set_solver]].
        unfold pointees. rewrite elem_of_list_omap. intros (p & Hp' & Ep). cbn in Ep. subst p. apply elem_of_list_fmap in Hp' as ([k' q'] & Eq & Hx). cbn in Eq. subst q'.
        assert (m !! k' = Some (Some a)) as Ek' by (apply (Hml (k', Some a)); set_solver). rewrite (Hi _ _ _ Ek Ek') in Hni. done.
      + intros a Ha. apply Hin in Ha as [k Ek]. by destruct (Hp _ _ Ek) as (b & [= <-] & _ & Hx).
  Qed.
End Lookups.

Lemma lookup_null {K} `{Countable K} (m : gmap K ptr) k :
  (forall a, FindPtrOrNull m k = Some a <-> m !! k = Some (Some a)) /\ (FindPtrOrNull m k = None <-> m !! k = None \/ m !! k = Some None) /\
  forall E (h : heap E) e, (LookupOrInsertNew h m k e).2 = None <-> m !! k = Some None.
Proof.
  unfold FindPtrOrNull, LookupOrInsertNew, collection_insert, ptr in *. destruct (m !! k) as [p|] eqn:Ek.
  - split_and!; [naive_solver..|]. intros E h e. cbv beta iota zeta. cbn [snd]. rewrite Ek. cbn. naive_solver.
  - split_and!; [naive_solver..|]. intros E h e. cbn. naive_solver.
Qed.
