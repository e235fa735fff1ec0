(** The cache operations in the list view (proof-internal vocabulary). *)
From stdpp Require Import gmap.
From Verif Require Import Base Proto Lru LruSim.
Local Open Scope Z_scope.
Set Implicit Arguments.
Local Arguments sum_Z : simpl never.

Section ops.
Context {V U : Type} `{!EqDecision V}.
Implicit Types (c : lru V) (s : ideal V) (e : elem V) (L P D : list (nat * elem V)).
Variable f : U -> string * V -> outcome U.
Variable clk : nat -> Z.
Variable ord : hash_order.

Definition Rep c s : Prop := exists L P D, Abs c s L P D.

Lemma rep_len c s : Rep c s -> (length (q_lst s) <= l_next_id c)%nat.
Proof.
  intros (L & P & D & A). rewrite (ab_lst (proj1 A)), fmap_length.
  pose proof (core_ids (proj1 A)) as N. rewrite fmap_app in N. apply NoDup_app in N as [N _].
  assert (S : L.*1 ⊆ seq 0 (l_next_id c)).
  { intros x Hx. apply elem_of_list_fmap in Hx as (p & -> & Hp). apply elem_of_seq.
    pose proof (ab_next (proj1 A)) as F. rewrite Forall_forall in F. specialize (F p). cbn in F.
    assert (p ∈ L ++ P ++ D) by (apply elem_of_app; by left). specialize (F ltac:(assumption)). lia. }
  pose proof (submseteq_length _ _ (NoDup_submseteq _ _ N S)) as Q. by rewrite seq_length, fmap_length in Q.
Qed.

Lemma rep_keys c s : Rep c s -> NoDup (e_key <$> cached_elems s).
Proof. intros (L & P & D & A). eapply abs_keys, A. Qed.
Lemma rep_vals c s : Rep c s -> NoDup (e_value <$> all_elems s).
Proof. intros (L & P & D & A). apply (ab_vals (proj1 A)). Qed.
Lemma rep_core c s : Rep c s -> exists L P D, Core c s L P D.
Proof. intros (L & P & D & A). exists L, P, D. apply A. Qed.

Notation wrld := (world (V:=V) (U:=U)).
Notation runs := (runs (U:=U) f).
Notation passive := (passive f).

(** ** keys *)
Lemma filter_key_out (l : list (elem V)) k : k ∉ e_key <$> l ->
  filter (fun x => e_key x <> k) l = l /\ filter (fun x => e_key x = k) l = [].
Proof.
  induction l as [|x l IH]; intros N; [done|]. csimpl in N. apply not_elem_of_cons in N as [N1 N2].
  destruct (IH N2) as [E1 E2]. split.
  - rewrite filter_cons_True by congruence. by rewrite E1.
  - by rewrite filter_cons_False by congruence.
Qed.
Lemma filter_key_mid (a b : list (elem V)) e : NoDup (e_key <$> a ++ e :: b) ->
  filter (fun x => e_key x <> e_key e) (a ++ e :: b) = a ++ b /\ filter (fun x => e_key x = e_key e) (a ++ e :: b) = [e].
Proof.
  intros N. rewrite fmap_app in N. csimpl in N. apply NoDup_app in N as (_ & N1 & N2). apply NoDup_cons in N2 as [N2 _].
  assert (Na : e_key e ∉ e_key <$> a) by (intros H; apply (N1 _ H); left).
  rewrite !filter_app. rewrite filter_cons_False by (intros H; by apply H). rewrite filter_cons_True by done.
  destruct (filter_key_out _ Na) as [-> ->]. destruct (filter_key_out _ N2) as [-> ->]. done.
Qed.
Lemma fmap_split (l : list (nat * elem V)) a e b : l.*2 = a ++ e :: b ->
  exists la id lb, l = la ++ (id, e) :: lb /\ la.*2 = a /\ lb.*2 = b.
Proof.
  intros E. apply fmap_app_inv in E as (la & l2 & -> & E2 & ->). 
  destruct l2 as [|[id x] lb]; [done|]. csimpl in E2. injection E2 as E1 E3. exists la, id, lb. by subst.
Qed.

(** ** Remove *)
Definition i_remove (k : string) (s : ideal V) : ideal V :=
  with_lists (filter (fun x => e_key x <> k) (q_lst s)) (filter (fun x => e_key x <> k) (q_pin s))
    (detached (filter (fun x => e_key x = k) (cached_elems s)) (q_def s)) s.
Definition r_remove (k : string) (s : ideal V) : list (elem V) := dead (filter (fun x => e_key x = k) (cached_elems s)).

Lemma op_remove c s k : Rep c s ->
  exists c', runs (Remove passive k) c (kv <$> r_remove k s) pair c' /\ Rep c' (i_remove k s).
Proof.
  intros R. pose proof (rep_keys R) as NK. destruct R as (L & P & D & A).
  destruct (decide (k ∈ e_key <$> cached_elems s)) as [H|H].
  - apply elem_of_list_fmap in H as (e & -> & H). unfold i_remove, r_remove.
    assert (K : forall a b, cached_elems s = a ++ e :: b -> filter (fun x => e_key x = e_key e) (cached_elems s) = [e]).
    { intros a b E. rewrite E in *. by apply filter_key_mid. }
    unfold cached_elems in H. apply elem_of_app in H as [H|H]; apply elem_of_list_split in H as (a & b & E).
    + pose proof E as E'. rewrite (ab_lst (proj1 A)) in E'. apply fmap_split in E' as (La & id & Lb & -> & <- & <-).
      assert (EC : cached_elems s = La.*2 ++ e :: (Lb.*2 ++ q_pin s)).
      { unfold cached_elems. rewrite E. by rewrite <- app_assoc. }
      rewrite (K _ _ EC). rewrite EC in NK.
      destruct (remove_lst f La id e Lb A) as (c' & D' & R & A'). exists c'. split.
      * rewrite dead_cons. cbn. rewrite app_nil_r. exact R.
      * eexists _, _, _. cbn [detached]. 
        assert (Q1 : filter (fun x => e_key x <> e_key e) (q_lst s) = (La ++ Lb).*2).
        { rewrite E, fmap_app. apply filter_key_mid. rewrite app_comm_cons, app_assoc in NK. rewrite fmap_app in NK. by apply NoDup_app in NK as [NK _]. }
        assert (Q2 : filter (fun x => e_key x <> e_key e) (q_pin s) = P.*2).
        { rewrite <- (ab_pin (proj1 A)). apply filter_key_out. rewrite fmap_app in NK. csimpl in NK. apply NoDup_app in NK as (_ & _ & NK).
          apply NoDup_cons in NK as [NK _]. rewrite fmap_app in NK. intros H. apply NK. apply elem_of_app. by right. }
        rewrite Q1, Q2. exact A'.
    + pose proof E as E'. rewrite (ab_pin (proj1 A)) in E'. apply fmap_split in E' as (Pa & id & Pb & -> & <- & <-).
      assert (EC : cached_elems s = (q_lst s ++ Pa.*2) ++ e :: Pb.*2).
      { unfold cached_elems. rewrite E. by rewrite app_assoc. }
      rewrite (K _ _ EC). rewrite EC in NK.
      destruct (remove_pin f Pa id e Pb A) as (c' & D' & R & A'). exists c'. split.
      * rewrite dead_cons. cbn. rewrite app_nil_r. exact R.
      * eexists _, _, _. cbn [detached].
        assert (Q1 : filter (fun x => e_key x <> e_key e) (q_lst s) = L.*2).
        { rewrite <- (ab_lst (proj1 A)). apply filter_key_out. rewrite fmap_app in NK. csimpl in NK. apply NoDup_app in NK as (_ & NK & _).
          intros H. apply (NK (e_key e)); [|left]. rewrite fmap_app. apply elem_of_app. by left. }
        assert (Q2 : filter (fun x => e_key x <> e_key e) (q_pin s) = (Pa ++ Pb).*2).
        { rewrite E, fmap_app. apply filter_key_mid. rewrite <- app_assoc in NK. rewrite fmap_app in NK. by apply NoDup_app in NK as (_ & _ & NK). }
        rewrite Q1, Q2. exact A'.
  - exists c. unfold i_remove, r_remove. destruct (filter_key_out _ H) as [_ H2]. rewrite H2. cbn [dead detached]. split.
    + apply runs_nil. apply (remove_none f A H).
    + exists L, P, D. unfold cached_elems in H. rewrite fmap_app, not_elem_of_app in H. destruct H as [H3 H4].
      destruct (filter_key_out _ H3) as [-> _]. destruct (filter_key_out _ H4) as [-> _]. by rewrite with_lists_same.
Qed.

(** ** Eviction and expiry *)
Definition r_evict (s : ideal V) := (evict (q_max s) (total s) (rev (q_lst s))).2.
Definition i_evict (s : ideal V) : ideal V := with_lists (rev (evict (q_max s) (total s) (rev (q_lst s))).1) (q_pin s) (q_def s) s.
Lemma op_gc c s fuel : Rep c s -> (length (q_lst s) < fuel)%nat ->
  exists c', runs (GarbageCollect passive fuel) c (kv <$> r_evict s) pair c' /\ Rep c' (i_evict s).
Proof.
  intros R Hf. pose proof Hf as Hl. destruct R as (L & P & D & A).
  assert (A' : Abs c s (L ++ []) P D) by by rewrite app_nil_r.
  destruct (@gc_runs V U f L fuel c s [] P D A') as (c' & L' & D' & R & A2).
  { rewrite (ab_lst (proj1 A)), fmap_length in Hl. lia. }
  exists c'. unfold r_evict, i_evict. rewrite (ab_lst (proj1 A)). split.
  - intros u. rewrite <- R. unfold GarbageCollect, list_tail. cbn [fst]. by rewrite (ab_list (proj1 A)).
  - exists L', P, D'. csimpl in A2. rewrite app_nil_r in A2. exact A2.
Qed.

Definition Timed (s : ideal V) : Prop := StronglySorted newer (q_lst s) /\ Forall (fun e => 0 <= e_last e) (q_lst s).

Definition threshold (s : ideal V) : Z := clk (q_tick s) - q_idle s.
Definition i_expire (s : ideal V) : ideal V :=
  if 0 <=? q_idle s then
    with_tick (S (q_tick s)) (with_lists (rev (expire (threshold s) (rev (q_lst s))).1) (q_pin s)
                               (detached (expire (threshold s) (rev (q_lst s))).2 (q_def s)) s)
  else s.
Definition r_expire (s : ideal V) : list (elem V) :=
  if 0 <=? q_idle s then dead (expire (threshold s) (rev (q_lst s))).2 else [].

Lemma op_idle c s fuel i : Rep c s -> Timed s -> (length (q_lst s) < fuel)%nat -> 0 <= i -> q_idle s = i ->
  exists c', runs (DiscardIdle passive clk fuel i) c (kv <$> r_expire s) pair c' /\ Rep c' (i_expire s).
Proof.
  intros R T Hf Hi Ei. pose proof Hf as Hl. destruct R as (L & P & D & A).
  unfold r_expire, i_expire. rewrite Ei. assert (Hi' : 0 <=? i = true) by by apply Z.leb_le. rewrite Hi'.
  destruct T as [T1 T2]. pose proof (ab_lst (proj1 A)) as EL.
  destruct (@idle_runs V U f (threshold s) L fuel (after_now c) (with_tick (S (q_tick s)) s) P D 0) as (c' & L' & D' & R & A2).
  - unfold after_now. rewrite (ab_tick (proj1 A)). by apply abs_tick.
  - rewrite EL, fmap_length in Hl. lia.
  - by rewrite <- EL.
  - intros e He. rewrite <- EL in He. rewrite Forall_forall in T2. specialize (T2 e He). cbn in T2. lia.
  - exists c'. rewrite EL. split.
    + intros u. rewrite <- R. unfold DiscardIdle. assert (Hi2 : i <? 0 = false) by (apply Z.ltb_ge; lia). rewrite Hi2. cbn [fst snd].
      unfold read_now, threshold. rewrite (ab_tick (proj1 A)), Ei. unfold list_tail, after_now. cbn [set_tick l_list]. by rewrite (ab_list (proj1 A)).
    + exists L', P, D'. exact A2.
Qed.
Lemma op_expire c s fuel : Rep c s -> Timed s -> (length (q_lst s) < fuel)%nat ->
  exists c', runs (RemoveExpiredEntries passive clk fuel) c (kv <$> r_expire s) pair c' /\ Rep c' (i_expire s).
Proof.
  intros R T Hf. assert (El : l_idle c = q_idle s) by (destruct R as (L & P & D & A); apply (ab_idle (proj1 A))).
  destruct (0 <=? q_idle s) eqn:Ei.
  - destruct (op_idle R T Hf (proj1 (Z.leb_le _ _) Ei) eq_refl) as (c' & R1 & R2). exists c'. split; [|done].
    intros u. rewrite <- R1. unfold RemoveExpiredEntries. cbn [fst]. by rewrite El, Ei.
  - exists c. unfold r_expire, i_expire. rewrite Ei. split; [|done]. apply runs_nil. intros u.
    unfold RemoveExpiredEntries. cbn [fst]. by rewrite El, Ei.
Qed.

(** ** Lookup *)
Definition pinned e : elem V := set_pin (e_pin e + 1) e.
Definition at_key (k : string) (g : elem V -> elem V) (l : list (elem V)) : list (elem V) :=
  (fun x => if decide (e_key x = k) then g x else x) <$> l.
Definition i_pin (k : string) e (s : ideal V) : ideal V :=
  if q_lru s then
    with_lists (filter (fun x => e_key x <> k) (q_lst s)) (pinned e :: filter (fun x => e_key x <> k) (q_pin s)) (q_def s) s
  else with_lists (at_key k pinned (q_lst s)) (q_pin s) (q_def s) s.

Lemma at_key_out k g l : k ∉ e_key <$> l -> at_key k g l = l.
Proof.
  intros N. unfold at_key. rewrite <- (list_fmap_id l) at 2. apply list_fmap_ext. intros i x Hx.
  rewrite decide_False; [done|]. intros <-. apply N. apply elem_of_list_fmap. exists x. split; [done|]. by eapply elem_of_list_lookup_2.
Qed.
Lemma at_key_mid g a e b : NoDup (e_key <$> a ++ e :: b) -> at_key (e_key e) g (a ++ e :: b) = a ++ g e :: b.
Proof.
  intros N. rewrite fmap_app in N. csimpl in N. apply NoDup_app in N as (_ & N1 & N2). apply NoDup_cons in N2 as [N2 _].
  assert (Na : e_key e ∉ e_key <$> a) by (intros H; apply (N1 _ H); left).
  unfold at_key. rewrite fmap_app. csimpl. rewrite decide_True by done.
  pose proof (at_key_out g _ Na) as X1. pose proof (at_key_out g _ N2) as X2. unfold at_key in X1, X2. by rewrite X1, X2.
Qed.

(** A cached element is on the list or, in LRU mode only, pinned and off it. *)
Lemma cached_cases c s L P D e : Abs c s L P D -> e ∈ cached_elems s ->
  (exists La id Lb, L = La ++ (id, e) :: Lb /\ e ∈ q_lst s) \/ (exists Pa id Pb, P = Pa ++ (id, e) :: Pb /\ q_lru s = true /\ e ∈ q_pin s /\ 0 < e_pin e).
Proof.
  intros A H. unfold cached_elems in H. apply elem_of_app in H as [H|H].
  - left. pose proof H as H'. rewrite (ab_lst (proj1 A)) in H'. apply elem_of_list_split in H' as (a & b & E). apply fmap_split in E as (la & id & lb & -> & _ & _).
    eauto 6.
  - right. pose proof H as H'. rewrite (ab_pin (proj1 A)) in H'. apply elem_of_list_split in H' as (a & b & E). apply fmap_split in E as (la & id & lb & -> & _ & _).
    exists la, id, lb. split; [done|]. split; [|split; [done|]].
    + destruct (q_lru s) eqn:El; [done|]. rewrite (ab_pinlru (proj1 A) El) in H. by apply elem_of_nil in H.
    + pose proof (ab_pinpin (proj1 A)) as F. rewrite Forall_forall in F. by apply F.
Qed.
Lemma cached_id c s L P D e : Abs c s L P D -> e ∈ cached_elems s -> exists id, l_table c !! e_key e = Some id /\ l_heap c !! id = Some e.
Proof.
  intros A H. destruct (cached_cases A H) as [(La & id & Lb & -> & _)|(Pa & id & Pb & -> & _)]; exists id; split.
  - apply (abs_tab _ _ A). exists e. split; [|done]. rewrite !elem_of_app, elem_of_cons. auto.
  - apply (core_look _ _ (proj1 A)). rewrite !elem_of_app, elem_of_cons. auto.
  - apply (abs_tab _ _ A). exists e. split; [|done]. rewrite !elem_of_app, elem_of_cons. auto.
  - apply (core_look _ _ (proj1 A)). rewrite !elem_of_app, elem_of_cons. auto.
Qed.
Lemma elem_pos c s e : Rep c s -> e ∈ all_elems s -> 0 <= e_pin e /\ 0 <= e_units e.
Proof. intros (L & P & D & A) H. pose proof (ab_pos (proj1 A)) as F. rewrite Forall_forall in F. by apply F. Qed.
Lemma cached_all s e : e ∈ cached_elems s -> e ∈ all_elems s.
Proof. unfold cached_elems, all_elems. rewrite !elem_of_app. tauto. Qed.

(** Elements outside the split part of the cached ones. *)
Lemma split_keys c s L P D e : Abs c s L P D ->
  (forall La id Lb, L = La ++ (id, e) :: Lb ->
     filter (fun x => e_key x <> e_key e) (q_lst s) = La.*2 ++ Lb.*2 /\
     filter (fun x => e_key x <> e_key e) (q_pin s) = P.*2 /\
     (forall g, at_key (e_key e) g (q_lst s) = La.*2 ++ g e :: Lb.*2)) /\
  (forall Pa id Pb, P = Pa ++ (id, e) :: Pb ->
     filter (fun x => e_key x <> e_key e) (q_lst s) = L.*2 /\
     filter (fun x => e_key x <> e_key e) (q_pin s) = Pa.*2 ++ Pb.*2).
Proof.
  intros A. pose proof (abs_keys A) as NK. unfold cached_elems in NK. split.
  - intros La id Lb ->. rewrite (ab_lst (proj1 A)), fmap_app in *. csimpl in *.
    rewrite fmap_app in NK. apply NoDup_app in NK as (N1 & N2 & N3).
    split; [by apply filter_key_mid|]. split.
    + rewrite <- (ab_pin (proj1 A)). apply filter_key_out. apply N2. rewrite fmap_app. apply elem_of_app. right. left.
    + intros g. by apply at_key_mid.
  - intros Pa id Pb ->. rewrite (ab_pin (proj1 A)), fmap_app in *. csimpl in *.
    rewrite fmap_app in NK. apply NoDup_app in NK as (N1 & N2 & N3).
    split; [|by apply filter_key_mid].
    rewrite <- (ab_lst (proj1 A)). apply filter_key_out. intros H. apply (N2 _ H). rewrite fmap_app. apply elem_of_app. right. left.
Qed.

Lemma ids_split c s L P D : Abs c s L P D ->
  (forall La id e Lb, L = La ++ (id, e) :: Lb -> filter (fun x => x <> id) L.*1 = (La ++ Lb).*1) /\
  (forall Pa id e Pb, P = Pa ++ (id, e) :: Pb -> filter (fun x => x <> id) L.*1 = L.*1).
Proof.
  intros A. pose proof (core_ids (proj1 A)) as N. split.
  - intros La id e Lb ->. rewrite !fmap_app in *. csimpl in *. apply filter_neq. rewrite <- !app_assoc in N. cbn [app] in N.
    rewrite app_comm_cons, app_assoc in N. by apply NoDup_app in N as [N _].
  - intros Pa id e Pb ->. apply filter_notin. eapply core_unlinked; [apply A|]. rewrite !elem_of_app, elem_of_cons. auto.
Qed.

Ltac proj := unfold store, Unlink, after_now, set_heap, set_next, set_table, set_defer, set_list, set_units, set_max, set_pinned, set_idle, set_lru, set_tick;
  cbn [l_heap l_next_id l_table l_defer l_list l_units l_max l_pinned l_idle l_lru l_tick fst snd].

Lemma set_pin_pos e p : 0 < p -> 0 <? e_pin (set_pin p e) = true.
Proof. intros. by apply Z.ltb_lt. Qed.

Definition do_pin (update : bool) (k : string) (w : wrld) : outcome (wrld * option V) :=
  match l_table w.1 !! k with
  | None => Ok (w, None)
  | Some id =>
      let! e := load id w.1 in
      let c := w.1 in
      let c := if e_pin e =? 0 then
                 let c := set_pinned (l_pinned c + e_units e) c in
                 if l_lru c && update then Unlink id c else c
               else c in
      let c := store id (set_pin (e_pin e + 1) e) c in
      Ok ((c, w.2), Some (e_value e))
  end.

Lemma pin_hit c s e : Rep c s -> e ∈ cached_elems s ->
  exists c', runs (do_pin true (e_key e)) c [] (fun c u => ((c, u), Some (e_value e))) c' /\ Rep c' (i_pin (e_key e) e s) /\
             l_next_id c' = l_next_id c.
Proof.
  intros R H. destruct (elem_pos R (cached_all _ H)) as [Hp Hu]. destruct R as (L & P & D & A).
  destruct (cached_id A H) as (id0 & Ht & Hh).
  assert (Hpi : 0 <? e_pin e + 1 = true) by (apply Z.ltb_lt; lia).
  destruct (split_keys e A) as [K1 K2]. destruct (ids_split A) as [I1 I2].
  destruct (cached_cases A H) as [(La & id & Lb & -> & HL)|(Pa & id & Pb & -> & Hlru & HP & Hpp)].
  - assert (id0 = id) as ->.
    { assert (Ht' : l_table c !! e_key e = Some id) by (apply (abs_tab _ _ A); exists e; split; [|done]; rewrite !elem_of_app, elem_of_cons; auto). congruence. }
    specialize (I1 La id e Lb eq_refl).
    destruct (K1 La id Lb eq_refl) as (Q1 & Q2 & Q3). destruct (q_lru s) eqn:El.
    + assert (Hz : e_pin e = 0). { pose proof (ab_lstpin (proj1 A) El) as F. rewrite Forall_forall in F. by apply F. }
      assert (X := @update_cached V c s _ _ D id e (pinned e) (La ++ Lb) ((id, pinned e) :: P) ((La ++ Lb) ++ P)
         (l_units c) (l_pinned c + e_units e) A).
      eexists. split; [|split].
      * apply runs_nil. intros u. unfold do_pin. cbn [fst snd]. rewrite Ht. unfold load. rewrite Hh. cbn [obind]. rewrite Hz. cbn [Z.eqb].
        proj. assert (El' : l_lru c = true) by (rewrite (ab_lru (proj1 A)); done). rewrite El'. cbn [andb]. proj. reflexivity.
      * unfold i_pin. rewrite El. rewrite Q1, Q2. eexists _, _, _.
        assert (El' : l_lru c = true) by (rewrite (ab_lru (proj1 A)); done). rewrite El' in X.
        proj. assert (Epin : set_pin (0 + 1) e = pinned e) by (unfold pinned; by rewrite Hz). rewrite Epin.
        rewrite (ab_list (proj1 A)), I1, <- fmap_app. apply X; try done.
        -- rewrite <- !app_assoc. cbn. symmetry. apply Permutation_middle.
        -- symmetry. apply Permutation_middle.
        -- unfold pinned. cbn. lia.
        -- intros _. pose proof (ab_lstpin (proj1 A) El) as F. rewrite (ab_lst (proj1 A)), fmap_app in F. csimpl in F. rewrite fmap_app, Forall_app in *. rewrite Forall_cons in F. tauto.
        -- csimpl. apply Forall_cons. split; [unfold pinned; cbn; lia|]. rewrite <- (ab_pin (proj1 A)). apply (ab_pinpin (proj1 A)).
        -- intros; congruence.
        -- unfold pinned. cbn. lia.
        -- rewrite Hz. unfold pinned. rewrite set_pin_pos by lia. cbn. lia.
      * done.
    + assert (X := @update_cached V c s _ _ D id e (pinned e) (La ++ (id, pinned e) :: Lb) (P) ((La ++ Lb) ++ P)
         (l_units c) (if e_pin e =? 0 then l_pinned c + e_units e else l_pinned c) A).
      assert (El' : l_lru c = false) by (rewrite (ab_lru (proj1 A)); done).
      eexists. split; [|split].
      * apply runs_nil. intros u. unfold do_pin. cbn [fst snd]. rewrite Ht. unfold load. rewrite Hh. cbn [obind]. proj. rewrite El'. cbn [andb]. reflexivity.
      * unfold i_pin. rewrite El. rewrite Q3. eexists _, _, _.
        assert (X2 : Abs (Lru (<[id := pinned e]> (l_heap c)) (l_next_id c) (l_table c) (l_defer c) (La ++ (id, pinned e) :: Lb).*1 (l_units c) (l_max c)
           (if e_pin e =? 0 then l_pinned c + e_units e else l_pinned c) (l_idle c) (l_lru c) (l_tick c))
           (with_lists (La ++ (id, pinned e) :: Lb).*2 P.*2 (q_def s) s) (La ++ (id, pinned e) :: Lb) P D).
        { apply X; try done.
          -- rewrite <- !app_assoc. cbn. symmetry. apply Permutation_middle.
          -- rewrite <- !app_assoc. cbn. symmetry. apply Permutation_middle.
          -- unfold pinned. cbn. lia.
          -- intros; congruence.
          -- rewrite <- (ab_pin (proj1 A)). apply (ab_pinpin (proj1 A)).
          -- intros _. pose proof (ab_pinlru (proj1 A) El) as E0. rewrite (ab_pin (proj1 A)) in E0. by apply fmap_nil_inv in E0.
          -- unfold pinned. cbn. lia.
          -- unfold pinned. rewrite set_pin_pos by lia. cbn [set_pin e_units]. destruct (e_pin e =? 0) eqn:E0.
             ++ apply Z.eqb_eq in E0. rewrite E0. change (0 <? 0) with false. cbv iota. lia.
             ++ apply Z.eqb_neq in E0. assert (Y : 0 <? e_pin e = true) by (apply Z.ltb_lt; lia). rewrite Y. lia. }
        rewrite !fmap_app in X2. csimpl in X2. rewrite <- (ab_pin (proj1 A)) in X2.
        pose proof (ab_list (proj1 A)) as Xl. rewrite fmap_app in Xl. csimpl in Xl. rewrite <- Xl in X2.
        rewrite El' in X2. destruct (e_pin e =? 0); [exact X2|]. rewrite <- El' in X2. exact X2.
      * by destruct (e_pin e =? 0).
  - assert (id0 = id) as ->.
    { assert (Ht' : l_table c !! e_key e = Some id) by (apply (abs_tab _ _ A); exists e; split; [|done]; rewrite !elem_of_app, elem_of_cons; auto). congruence. }
    destruct (K2 Pa id Pb eq_refl) as (Q1 & Q2).
    assert (X := @update_cached V c s _ _ D id e (pinned e) (L) ((id, pinned e) :: Pa ++ Pb) (L ++ Pa ++ Pb)
         (l_units c) (l_pinned c) A).
    assert (Hz : e_pin e =? 0 = false) by (apply Z.eqb_neq; lia).
    eexists. split; [|split].
    + apply runs_nil. intros u. unfold do_pin. cbn [fst snd]. rewrite Ht. unfold load. rewrite Hh. cbn [obind]. rewrite Hz. reflexivity.
    + unfold i_pin. rewrite Hlru. rewrite Q1, Q2, <- fmap_app. eexists _, _, _. proj. rewrite (ab_list (proj1 A)). apply X; try done.
      * rewrite !app_assoc. symmetry. apply Permutation_middle.
      * symmetry. apply Permutation_middle.
      * unfold pinned. cbn. lia.
      * intros _. rewrite <- (ab_lst (proj1 A)). by apply (ab_lstpin (proj1 A)).
      * csimpl. apply Forall_cons. split; [unfold pinned; cbn; lia|]. pose proof (ab_pinpin (proj1 A)) as F. rewrite (ab_pin (proj1 A)), fmap_app in F. csimpl in F.
        rewrite fmap_app, Forall_app in *. rewrite Forall_cons in F. tauto.
      * intros; congruence.
      * unfold pinned. cbn. lia.
      * unfold pinned. rewrite set_pin_pos by lia. assert (Y : 0 <? e_pin e = true) by (apply Z.ltb_lt; lia). rewrite Y. cbn. lia.
    + done.
Qed.
Lemma pin_miss c s k : Rep c s -> k ∉ e_key <$> cached_elems s -> forall up u, do_pin up k (c, u) = Ok ((c, u), None).
Proof.
  intros (L & P & D & A) N up u. unfold do_pin. cbn [fst]. destruct (l_table c !! k) as [id|] eqn:E; [|done].
  exfalso. apply N. apply (abs_tab _ _ A) in E as (e & H & <-). apply elem_of_list_fmap. exists e. split; [done|].
  unfold cached_elems. rewrite (ab_lst (proj1 A)), (ab_pin (proj1 A)), <- fmap_app. apply elem_of_list_fmap. exists (id, e). done.
Qed.

Lemma runs_bind2 {R} (o1 : wrld -> outcome wrld) (o2 : wrld -> outcome R) c c1 c2 l1 l2 ret :
  runs o1 c l1 pair c1 -> runs o2 c1 l2 ret c2 -> runs (fun w => let! w' := o1 w in o2 w') c (l1 ++ l2) ret c2.
Proof. apply runs_bind. Qed.

Lemma op_lookup_hit c s e fuel : Rep c s -> Timed s -> (length (q_lst s) < fuel)%nat -> e ∈ cached_elems (i_expire s) ->
  exists c', runs (Lookup passive clk fuel (e_key e)) c (kv <$> r_expire s) (fun c u => ((c, u), Some (e_value e))) c' /\
             Rep c' (i_pin (e_key e) e (i_expire s)).
Proof.
  intros R T Hf H. destruct (op_expire R T Hf) as (c1 & R1 & P1). destruct (pin_hit P1 H) as (c2 & R2 & P2 & _).
  exists c2. split; [|done]. rewrite <- (app_nil_r (kv <$> r_expire s)). exact (runs_bind2 R1 R2).
Qed.
Lemma op_lookup_miss c s k fuel : Rep c s -> Timed s -> (length (q_lst s) < fuel)%nat -> k ∉ e_key <$> cached_elems (i_expire s) ->
  exists c', runs (Lookup passive clk fuel k) c (kv <$> r_expire s) (fun c u => ((c, u), None)) c' /\ Rep c' (i_expire s).
Proof.
  intros R T Hf H. destruct (op_expire R T Hf) as (c1 & R1 & P1).
  exists c1. split; [|done]. rewrite <- (app_nil_r (kv <$> r_expire s)). eapply runs_bind2; [exact R1|].
  apply runs_nil. intros u. apply (pin_miss P1 H true).
Qed.

(** ** Insertion *)
Definition i_add e (s : ideal V) : ideal V :=
  if q_lru s then with_lists (q_lst s) (e :: q_pin s) (q_def s) s else with_lists (e :: q_lst s) (q_pin s) (q_def s) s.

Lemma add_elem c s e : Rep c s -> 0 < e_pin e -> 0 <= e_units e -> e_key e ∉ e_key <$> cached_elems s -> e_value e ∉ e_value <$> all_elems s ->
  Rep (Lru (<[l_next_id c := e]> (l_heap c)) (S (l_next_id c)) (<[e_key e := l_next_id c]> (l_table c)) (l_defer c)
         (if l_lru c then l_list c else l_next_id c :: l_list c) (l_units c + e_units e) (l_max c) (l_pinned c + e_units e) (l_idle c) (l_lru c) (l_tick c))
      (i_add e s) /\ l_next_id c ∉ l_list c.
Proof.
  intros (L & P & D & A) Hp Hu Hk Hv. set (id := l_next_id c).
  assert (Hh : l_heap c !! id = None).
  { destruct (l_heap c !! id) as [x|] eqn:E; [|done]. exfalso. apply (core_look _ _ (proj1 A)) in E.
    pose proof (ab_next (proj1 A)) as F. rewrite Forall_forall in F. specialize (F _ E). cbn in F. unfold id in F. lia. }
  assert (Ht : l_table c !! e_key e = None).
  { destruct (l_table c !! e_key e) as [x|] eqn:E; [|done]. exfalso. apply Hk. apply (abs_tab _ _ A) in E as (y & H & <-).
    apply elem_of_list_fmap. exists y. split; [done|]. unfold cached_elems. rewrite (ab_lst (proj1 A)), (ab_pin (proj1 A)), <- fmap_app.
    apply elem_of_list_fmap. exists (x, y). done. }
  assert (Hnl : id ∉ L.*1).
  { intros H. apply elem_of_list_fmap in H as ([i x] & E & H). cbn in E. subst i.
    assert (H' : (id, x) ∈ L ++ P ++ D) by (rewrite !elem_of_app; auto). apply (core_look _ _ (proj1 A)) in H'. congruence. }
  split; [|by rewrite (ab_list (proj1 A))].
  assert (exists L' P', (if q_lru s then L' = L /\ P' = (id, e) :: P else L' = (id, e) :: L /\ P' = P) /\ L' ++ P' ≡ₚ (id, e) :: L ++ P) as (L' & P' & HLP & EP).
  { destruct (q_lru s).
    - exists L, ((id, e) :: P). split; [done|]. symmetry. apply Permutation_middle.
    - exists ((id, e) :: L), P. done. }
  assert (EH : L' ++ P' ++ D ≡ₚ (id, e) :: L ++ P ++ D) by (rewrite app_assoc, EP; cbn; by rewrite app_assoc).
  assert (Eq : i_add e s = with_lists L'.*2 P'.*2 (q_def s) s).
  { unfold i_add. destruct (q_lru s); destruct HLP as [-> ->]; by rewrite (ab_lst (proj1 A)), (ab_pin (proj1 A)). }
  assert (Hall : all_elems (i_add e s) ≡ₚ e :: all_elems s).
  { rewrite Eq. unfold all_elems. cbn [with_lists q_lst q_pin q_def]. rewrite (ab_lst (proj1 A)), (ab_pin (proj1 A)), (ab_def (proj1 A)), <- !fmap_app, EH. done. }
  assert (Hc : cached_elems (i_add e s) ≡ₚ e :: cached_elems s).
  { rewrite Eq. unfold cached_elems. cbn [with_lists q_lst q_pin q_def]. rewrite (ab_lst (proj1 A)), (ab_pin (proj1 A)), <- !fmap_app, EP. done. }
  exists L', P', D. destruct A as [A T]. split.
  - rewrite Eq in *. constructor; cbn [l_heap l_next_id l_table l_defer l_list l_units l_max l_pinned l_idle l_lru l_tick
                        with_lists q_lst q_pin q_def q_max q_idle q_lru q_tick]; try (by apply A); try reflexivity.
    + rewrite (ab_lru A). destruct (q_lru s); destruct HLP as [-> ->]; by rewrite (ab_list A).
    + rewrite map_to_list_insert by done. rewrite EH. by rewrite (ab_heap A).
    + rewrite EH. apply Forall_cons. split; [cbn; unfold id; lia|]. eapply Forall_impl; [apply (ab_next A)|]. cbn. intros; lia.
    + rewrite (ab_units A). unfold total at 2. rewrite Hall. csimpl. rewrite sum_Z_cons. unfold total. lia.
    + rewrite (ab_pinned A), (pinned_part_perm Hc), pinned_part_cons. assert (X : 0 <? e_pin e = true) by by apply Z.ltb_lt. rewrite X. lia.
    + intros Q. rewrite Q in HLP. destruct HLP as [-> _]. rewrite <- (ab_lst A). by apply (ab_lstpin A).
    + destruct (q_lru s) eqn:Q; destruct HLP as [_ ->].
      * csimpl. apply Forall_cons. split; [done|]. rewrite <- (ab_pin A). apply (ab_pinpin A).
      * rewrite <- (ab_pin A). apply (ab_pinpin A).
    + intros Q. rewrite Q in HLP. destruct HLP as [_ ->]. rewrite <- (ab_pin A). by apply (ab_pinlru A).
    + rewrite Hall. apply Forall_cons. split; [lia|]. apply (ab_pos A).
    + rewrite Hall. csimpl. apply NoDup_cons. split; [done|]. apply (ab_vals A).
  - cbn [l_table]. rewrite map_to_list_insert by done. rewrite T, (tab_perm EP). done.
Qed.

Lemma rep_tick c s n : Rep c s -> Rep (set_tick n c) (with_tick n s).
Proof. intros (L & P & D & A). exists L, P, D. by apply abs_tick. Qed.
Lemma rep_max c s n : Rep c s -> Rep (set_max n c) (with_max n s).
Proof. intros (L & P & D & A). exists L, P, D. by apply abs_max. Qed.
Lemma rep_idle c s n : Rep c s -> Rep (set_idle n c) (with_idle n s).
Proof. intros (L & P & D & A). exists L, P, D. by apply abs_idle. Qed.
Lemma rep_fields c s : Rep c s -> l_tick c = q_tick s /\ l_lru c = q_lru s /\ l_max c = q_max s /\ l_idle c = q_idle s /\ l_units c = total s /\ l_pinned c = pinned_part (cached_elems s).
Proof. intros (L & P & D & A). repeat split; apply (proj1 A). Qed.

Lemma in_removed k s e : e ∈ cached_elems (i_remove k s) <-> e ∈ cached_elems s /\ e_key e <> k.
Proof.
  unfold cached_elems, i_remove. cbn [with_lists q_lst q_pin]. rewrite !elem_of_app, !elem_of_list_filter. tauto.
Qed.
Lemma removed_perm k s : all_elems s ≡ₚ r_remove k s ++ all_elems (i_remove k s).
Proof.
  unfold all_elems at 2, i_remove. cbn [with_lists q_lst q_pin q_def]. rewrite detached_perm. unfold r_remove, dead.
  assert (E : all_elems s ≡ₚ filter (fun x => e_key x = k) (cached_elems s) ++ filter (fun x => e_key x <> k) (cached_elems s) ++ q_def s).
  { unfold all_elems. rewrite app_assoc. fold (cached_elems s). rewrite app_assoc. f_equiv.
    clear. induction (cached_elems s) as [|x l IH]; [done|]. destruct (decide (e_key x = k)) as [E|E].
    - rewrite filter_cons_True by done. rewrite filter_cons_False by (intros H; by apply H). cbn. by rewrite <- IH.
    - rewrite filter_cons_False by done. rewrite (filter_cons_True (fun x => e_key x <> k)) by done. rewrite <- Permutation_middle. by rewrite <- IH. }
  rewrite E. set (F := filter (fun x => e_key x = k) (cached_elems s)).
  assert (E2 : F ≡ₚ filter (fun e => e_pin e = 0) F ++ filter (fun e => e_pin e <> 0) F).
  { clearbody F. clear. induction F as [|x l IH]; [done|]. destruct (decide (e_pin x = 0)) as [E|E].
    - rewrite filter_cons_True by done. rewrite filter_cons_False by (intros H; by apply H). cbn. by rewrite <- IH.
    - rewrite filter_cons_False by done. rewrite (filter_cons_True (fun x => e_pin x <> 0)) by done. rewrite <- Permutation_middle. by rewrite <- IH. }
  rewrite E2 at 1. unfold cached_elems. rewrite filter_app. solve_Permutation.
Qed.

Definition new_elem (k : string) (v : V) (u t : Z) : elem V := Elem k v 1 u t.
Definition i_insert1 k v u (s : ideal V) : ideal V :=
  i_add (new_elem k v u (clk (q_tick s))) (with_tick (S (q_tick s)) (i_remove k s)).

Lemma filter_len {A} (P : A -> Prop) `{!∀ x, Decision (P x)} (l : list A) : (length (filter P l) <= length l)%nat.
Proof. induction l as [|x l IH]; [done|]. destruct (decide (P x)); [rewrite filter_cons_True by done|rewrite filter_cons_False by done]; cbn; lia. Qed.

Definition insert_rest (fuel : nat) (k : string) (v : V) (units : Z) (w : wrld) : outcome wrld :=
  let id := l_next_id w.1 in
  let e := Elem k v 1 units (read_now clk w.1) in
  let c := set_next (S id) (store id e (after_now w.1)) in
  let c := set_pinned (l_pinned c + units) (set_units (l_units c + units) c) in
  let c := set_table (<[k := id]> (l_table c)) c in
  let! c := (if l_lru c then Ok c else LinkFront id c) in
  GarbageCollect passive fuel (c, w.2).

Lemma insert_rest_eq c fuel k v u (u' : U) : l_next_id c ∉ l_list c ->
  insert_rest fuel k v u (c, u') =
  GarbageCollect passive fuel
    (Lru (<[l_next_id c := new_elem k v u (clk (l_tick c))]> (l_heap c)) (S (l_next_id c)) (<[k := l_next_id c]> (l_table c)) (l_defer c)
       (if l_lru c then l_list c else l_next_id c :: l_list c) (l_units c + u) (l_max c) (l_pinned c + u) (l_idle c) (l_lru c) (S (l_tick c)), u').
Proof.
  destruct c as [h n t d l un mx pn id lr tk]. cbn [l_next_id l_list]. intros H.
  cbv beta iota zeta delta [insert_rest store after_now set_heap set_next set_table set_units set_pinned set_tick read_now LinkFront set_list new_elem
    l_heap l_next_id l_table l_defer l_list l_units l_max l_pinned l_idle l_lru l_tick fst snd].
  destruct lr; [done|]. rewrite decide_False by done. done.
Qed.

Lemma op_insertpinned c s k v u fuel : Rep c s -> (S (length (q_lst s)) < fuel)%nat -> 0 <= u -> v ∉ e_value <$> all_elems s ->
  exists c', runs (InsertPinned passive clk fuel k v u) c (kv <$> r_remove k s ++ r_evict (i_insert1 k v u s)) pair c' /\ Rep c' (i_evict (i_insert1 k v u s)).
Proof.
  intros R Hf Hu Hv. destruct (op_remove k R) as (c1 & R1 & P1).
  set (e := new_elem k v u (clk (q_tick s))).
  assert (Hk : e_key e ∉ e_key <$> cached_elems (with_tick (S (q_tick s)) (i_remove k s))).
  { intros H. apply elem_of_list_fmap in H as (x & E & H). apply (in_removed k s x) in H. destruct H as [_ H]. by rewrite <- E in H. }
  assert (Hv' : e_value e ∉ e_value <$> all_elems (with_tick (S (q_tick s)) (i_remove k s))).
  { intros H. apply Hv. rewrite (removed_perm k s), fmap_app, elem_of_app. by right. }
  destruct (add_elem (c := set_tick (S (q_tick s)) c1) (s := with_tick (S (q_tick s)) (i_remove k s)) e) as [P2 Hnl]; [by apply rep_tick|done|done|done|done|].
  destruct (rep_fields P1) as (Et & El & _). cbn in Et. 
  match type of P2 with Rep ?c2 _ => destruct (op_gc (fuel := fuel) P2) as (c3 & R3 & P3) end.
  { unfold i_add. destruct (q_lru _); cbn [with_lists with_tick i_remove q_lst length]; pose proof (filter_len (fun x => e_key x <> k) (q_lst s)); lia. }
  exists c3. split; [|exact P3].
  rewrite fmap_app. eapply runs_ext; [|eapply (runs_bind2 R1 (o2 := insert_rest fuel k v u))]; [done|].
  intros u'. rewrite <- R3. cbn [set_tick l_lru l_list l_next_id] in Hnl. rewrite (insert_rest_eq c1) by done. rewrite Et. done.
Qed.

(** ** Release of a cached value *)
Definition unpinned e : elem V := set_pin (e_pin e - 1) e.
Definition i_unpin (k : string) e (s : ideal V) : ideal V :=
  if q_lru s then
    let e' := set_pin (e_pin e - 1) (set_last (clk (q_tick s)) e) in
    with_tick (S (q_tick s))
      (if e_pin e =? 1 then with_lists (e' :: q_lst s) (filter (fun x => e_key x <> k) (q_pin s)) (q_def s) s
       else with_lists (q_lst s) (e' :: filter (fun x => e_key x <> k) (q_pin s)) (q_def s) s)
  else with_lists (at_key k unpinned (q_lst s)) (q_pin s) (q_def s) s.

Definition goes (e : elem V) (s : ideal V) : bool := (e_pin e =? 1) && (q_max s <? total s).
Definition i_release (e : elem V) (s : ideal V) : ideal V :=
  if goes e s then i_remove (e_key e) (i_unpin (e_key e) e s) else i_unpin (e_key e) e s.
Definition r_release (e : elem V) (s : ideal V) : list (elem V) :=
  if goes e s then r_remove (e_key e) (i_unpin (e_key e) e s) else [].

Lemma unpin_total c s e : Rep c s -> e ∈ cached_elems s -> 0 < e_pin e -> total (i_unpin (e_key e) e s) = total s.
Proof.
  intros (L & P & D & A) H Hp. destruct (split_keys e A) as [K1 K2].
  assert (S : forall a b : list (elem V), e_units <$> a ≡ₚ e_units <$> b -> sum_Z (e_units <$> a) = sum_Z (e_units <$> b)) by (intros a b E; by rewrite E).
  unfold i_unpin, total. destruct (cached_cases A H) as [(La & id & Lb & -> & HL)|(Pa & id & Pb & -> & Hlru & HP & Hpp)].
  - destruct (q_lru s) eqn:El.
    + exfalso. pose proof (ab_lstpin (proj1 A) El) as F. rewrite Forall_forall in F. specialize (F e HL). cbn in F. lia.
    + destruct (K1 La id Lb eq_refl) as (_ & _ & Q3). rewrite Q3. apply S. unfold all_elems. cbn [with_lists q_lst q_pin q_def].
      rewrite (ab_lst (proj1 A)), !fmap_app. csimpl. done.
  - rewrite Hlru. destruct (K2 Pa id Pb eq_refl) as (Q1 & Q2). rewrite Q2. apply S.
    unfold all_elems. rewrite (ab_pin (proj1 A)), fmap_app.
    destruct (e_pin e =? 1); cbn [with_lists with_tick q_lst q_pin q_def]; csimpl; rewrite !fmap_app; csimpl; solve_Permutation.
Qed.

Lemma unpin_runs c s e : Rep c s -> e ∈ cached_elems s -> 0 < e_pin e ->
  exists c1, Rep c1 (i_unpin (e_key e) e s) /\ forall u : U,
     release_cached passive clk true (e_key e) (e_value e) (c, u) =
     if e_pin e =? 1 then (if q_max s <? total s then Remove passive (e_key e) (c1, u) else Ok (c1, u)) else Ok (c1, u).
Proof.
  intros R H Hp.
  destruct (elem_pos R (cached_all _ H)) as [_ Hu]. pose proof R as (L & P & D & A).
  destruct (cached_id A H) as (id0 & Ht & Hh). destruct (rep_fields R) as (Etk & Elr & Emx & _ & Eun & Epi).
  destruct (split_keys e A) as [K1 K2].
  assert (Hpl : 0 <? e_pin e = true) by by apply Z.ltb_lt.
  unfold release_cached. cbn [fst snd]. rewrite Ht. unfold load. rewrite Hh. cbn [obind].
    rewrite bool_decide_true by done. rewrite Hpl. cbn [assert_ obind]. rewrite andb_true_r.
    unfold i_unpin.
    destruct (cached_cases A H) as [(La & id & Lb & -> & HL)|(Pa & id & Pb & -> & Hlru & HP & Hpp)].
    - destruct (q_lru s) eqn:El.
      { exfalso. pose proof (ab_lstpin (proj1 A) El) as F. rewrite Forall_forall in F. specialize (F e HL). cbn in F. lia. }
      rewrite Elr. cbv iota.
      assert (id0 = id) as ->.
      { assert (Ht' : l_table c !! e_key e = Some id) by (apply (abs_tab _ _ A); exists e; split; [|done]; rewrite !elem_of_app, elem_of_cons; auto). congruence. }
      destruct (K1 La id Lb eq_refl) as (_ & _ & Q3). rewrite Q3.
      set (pi := if e_pin e =? 1 then l_pinned c - e_units e else l_pinned c).
      pose proof (@update_cached V c s _ _ D id e (unpinned e) (La ++ (id, unpinned e) :: Lb) P ((La ++ Lb) ++ P) (l_units c) pi A) as X.
      eexists. split.
      + eexists _, _, _.
        assert (X2 : Abs (Lru (<[id := unpinned e]> (l_heap c)) (l_next_id c) (l_table c) (l_defer c) (La ++ (id, unpinned e) :: Lb).*1 (l_units c) (l_max c)
           pi (l_idle c) (l_lru c) (l_tick c))
           (with_lists (La ++ (id, unpinned e) :: Lb).*2 P.*2 (q_def s) s) (La ++ (id, unpinned e) :: Lb) P D).
        { apply X; try done.
          - rewrite <- !app_assoc. cbn. symmetry. apply Permutation_middle.
          - rewrite <- !app_assoc. cbn. symmetry. apply Permutation_middle.
          - unfold unpinned. cbn. lia.
          - intros; congruence.
          - rewrite <- (ab_pin (proj1 A)). apply (ab_pinpin (proj1 A)).
          - intros _. pose proof (ab_pinlru (proj1 A) El) as E0. rewrite (ab_pin (proj1 A)) in E0. by apply fmap_nil_inv in E0.
          - unfold unpinned. cbn. lia.
          - unfold unpinned, pi. rewrite Hpl. cbn [set_pin e_units e_pin]. destruct (e_pin e =? 1) eqn:E0.
            + apply Z.eqb_eq in E0. rewrite E0. change (0 <? 1 - 1) with false. cbv iota. lia.
            + apply Z.eqb_neq in E0. assert (Y : 0 <? e_pin e - 1 = true) by (apply Z.ltb_lt; lia). rewrite Y. lia. }
        rewrite !fmap_app in X2. csimpl in X2. rewrite <- (ab_pin (proj1 A)) in X2.
        pose proof (ab_list (proj1 A)) as Xl. rewrite fmap_app in Xl. csimpl in Xl. rewrite <- Xl in X2. exact X2.
      + intros u. unfold pi. proj. fold (unpinned e). unfold unpinned at 1. cbn [set_pin e_pin].
        destruct (e_pin e =? 1) eqn:E0.
        * apply Z.eqb_eq in E0. assert (E1 : e_pin e - 1 =? 0 = true) by (apply Z.eqb_eq; lia). rewrite E1. cbn [obind].
          unfold Overfull. proj. replace (l_max c <? l_units c) with (q_max s <? total s) by (by rewrite Emx, Eun). reflexivity.
        * apply Z.eqb_neq in E0. assert (E1 : e_pin e - 1 =? 0 = false) by (apply Z.eqb_neq; lia). rewrite E1. reflexivity.
    - rewrite Hlru in *. rewrite Elr. cbv iota.
      assert (id0 = id) as ->.
      { assert (Ht' : l_table c !! e_key e = Some id) by (apply (abs_tab _ _ A); exists e; split; [|done]; rewrite !elem_of_app, elem_of_cons; auto). congruence. }
      destruct (K2 Pa id Pb eq_refl) as (Q1 & Q2). rewrite Q2.
      assert (Ern : read_now clk c = clk (q_tick s)) by (unfold read_now; by rewrite Etk). rewrite Ern.
      set (e' := set_pin (e_pin e - 1) (set_last (clk (q_tick s)) e)).
      destruct (e_pin e =? 1) eqn:E0.
      + apply Z.eqb_eq in E0.
        pose proof (@update_cached V c s _ _ D id e e' ((id, e') :: L) (Pa ++ Pb) (L ++ (Pa ++ Pb)) (l_units c) (l_pinned c - e_units e) A) as X.
        assert (Hnl : id ∉ l_list c).
        { rewrite (ab_list (proj1 A)). eapply core_unlinked; [apply A|]. rewrite !elem_of_app, elem_of_cons. auto. }
        eexists. split.
        * eexists _, _, _. rewrite <- fmap_app. rewrite (ab_lst (proj1 A)). change (e' :: L.*2) with (((id, e') :: L).*2).
          refine (@abs_tick V _ (with_lists ((id, e') :: L).*2 (Pa ++ Pb).*2 (q_def s) s) _ _ _ (S (q_tick s)) _). apply X; try done.
          -- rewrite !app_assoc. symmetry. apply Permutation_middle.
          -- unfold e'. cbn. lia.
          -- intros _. csimpl. apply Forall_cons. split; [unfold e'; cbn; lia|]. rewrite <- (ab_lst (proj1 A)). by apply (ab_lstpin (proj1 A)).
          -- pose proof (ab_pinpin (proj1 A)) as F. rewrite (ab_pin (proj1 A)), fmap_app in F. csimpl in F.
             rewrite fmap_app, Forall_app in *. rewrite Forall_cons in F. tauto.
          -- intros; congruence.
          -- unfold e'. cbn. lia.
          -- rewrite Hpl. unfold e'. cbn [set_pin set_last e_pin e_units]. rewrite E0. change (0 <? 1 - 1) with false. cbv iota. lia.
        * intros u. proj. cbn [set_pin set_last e_pin e_units]. assert (E1 : e_pin e - 1 =? 0 = true) by (apply Z.eqb_eq; lia).
          change (e_pin (set_last (clk (q_tick s)) e)) with (e_pin e). fold e'. unfold e' at 1. cbn [set_pin e_pin]. rewrite E1.
          unfold LinkFront. proj. rewrite decide_False by done. cbn [obind]. unfold Overfull. proj.
          change (e_units e') with (e_units e). replace (l_max c <? l_units c) with (q_max s <? total s) by (by rewrite Emx, Eun). rewrite Etk. csimpl. rewrite <- (ab_list (proj1 A)). reflexivity.
      + apply Z.eqb_neq in E0.
        pose proof (@update_cached V c s _ _ D id e e' L ((id, e') :: Pa ++ Pb) (L ++ (Pa ++ Pb)) (l_units c) (l_pinned c) A) as X.
        eexists. split.
        * eexists _, _, _. rewrite <- fmap_app.
          replace (with_tick (S (q_tick s)) (with_lists (q_lst s) (e' :: (Pa ++ Pb).*2) (q_def s) s))
            with (with_tick (S (q_tick s)) (with_lists L.*2 ((id, e') :: Pa ++ Pb).*2 (q_def s) s)) by (by rewrite (ab_lst (proj1 A))).
          refine (@abs_tick V _ (with_lists L.*2 ((id, e') :: Pa ++ Pb).*2 (q_def s) s) _ _ _ (S (q_tick s)) _). apply X; try done.
          -- rewrite !app_assoc. symmetry. apply Permutation_middle.
          -- symmetry. apply Permutation_middle.
          -- unfold e'. cbn. lia.
          -- intros _. rewrite <- (ab_lst (proj1 A)). by apply (ab_lstpin (proj1 A)).
          -- csimpl. apply Forall_cons. split; [unfold e'; cbn; lia|]. pose proof (ab_pinpin (proj1 A)) as F. rewrite (ab_pin (proj1 A)), fmap_app in F. csimpl in F.
             rewrite fmap_app, Forall_app in *. rewrite Forall_cons in F. tauto.
          -- intros; congruence.
          -- unfold e'. cbn. lia.
          -- rewrite Hpl. unfold e'. cbn [set_pin set_last e_pin e_units]. assert (Y : 0 <? e_pin e - 1 = true) by (apply Z.ltb_lt; lia). rewrite Y. lia.
        * intros u. proj. assert (E1 : e_pin e - 1 =? 0 = false) by (apply Z.eqb_neq; lia).
          change (e_pin (set_last (clk (q_tick s)) e)) with (e_pin e). fold e'. unfold e' at 1. cbn [set_pin e_pin]. rewrite E1.
          rewrite Etk. csimpl. rewrite <- (ab_list (proj1 A)). reflexivity. 
Qed.

Lemma op_release_cached c s e : Rep c s -> e ∈ cached_elems s -> 0 < e_pin e ->
  exists c', runs (release_cached passive clk true (e_key e) (e_value e)) c (kv <$> r_release e s) pair c' /\ Rep c' (i_release e s).
Proof.
  intros R H Hp. destruct (unpin_runs R H Hp) as (c1 & P1 & X).
  unfold i_release, r_release, goes.
  destruct (e_pin e =? 1); cbn [andb]; [|by exists c1; split; [apply runs_nil|]].
  destruct (q_max s <? total s); [|by exists c1; split; [apply runs_nil|]].
  destruct (op_remove (e_key e) P1) as (c2 & R2 & P2). exists c2. split; [|done]. intros u. rewrite X. apply R2.
Qed.

(** ** Release of a detached value *)
Lemma drop_deferred c s L P Da id e Db d' : Abs c s L P (Da ++ (id, e) :: Db) ->
  (forall k, default [] (d' !! k) ≡ₚ of_key k (Da ++ Db)) -> (forall k, d' !! k <> Some []) ->
  Abs (Lru (delete id (l_heap c)) (l_next_id c) (l_table c) d' (l_list c) (l_units c - e_units e) (l_max c) (l_pinned c) (l_idle c) (l_lru c) (l_tick c))
    (with_lists (q_lst s) (q_pin s) (Da.*2 ++ Db.*2) s) L P (Da ++ Db).
Proof.
  intros [A T] Hd Hn.
  assert (EH : L ++ P ++ Da ++ (id, e) :: Db ≡ₚ (id, e) :: (L ++ P) ++ Da ++ Db).
  { rewrite <- Permutation_middle, <- !app_assoc. symmetry. rewrite !(app_assoc L P). apply Permutation_middle. }
  assert (EH' : L ++ P ++ Da ++ Db = (L ++ P) ++ Da ++ Db) by by rewrite <- !app_assoc.
  set (R := (L ++ P) ++ Da ++ Db) in *.
  assert (Hh : l_heap c !! id = Some e) by (apply (core_look _ _ A); rewrite EH; left).
  assert (Hall : all_elems s ≡ₚ e :: R.*2).
  { unfold all_elems. rewrite (ab_lst A), (ab_pin A), (ab_def A), <- !fmap_app, EH. done. }
  assert (Hall' : q_lst s ++ q_pin s ++ Da.*2 ++ Db.*2 = R.*2).
  { rewrite (ab_lst A), (ab_pin A). rewrite <- !fmap_app, EH'. done. }
  split; [|done].
  constructor; cbn [l_heap l_next_id l_table l_defer l_list l_units l_max l_pinned l_idle l_lru l_tick
                        with_lists q_lst q_pin q_def q_max q_idle q_lru q_tick]; try (by apply A); try reflexivity; try done.
  - by rewrite fmap_app.
  - rewrite EH'. apply (@Permutation_cons_inv _ _ _ (id, e)). rewrite map_to_list_delete by done. by rewrite (ab_heap A).
  - pose proof (ab_next A) as N. rewrite EH in N. apply Forall_cons in N as [N1 N2]. by rewrite EH'.
  - rewrite (ab_units A). unfold total, all_elems at 2. cbn [with_lists q_lst q_pin q_def]. rewrite Hall, Hall'.
    csimpl. rewrite !sum_Z_cons. lia.
  - pose proof (ab_defpin A) as N. rewrite (ab_def A), fmap_app in N. csimpl in N. rewrite Forall_app, Forall_cons in *. tauto.
  - pose proof (ab_pos A) as N. rewrite Hall in N. apply Forall_cons in N as [_ N]. unfold all_elems. cbn [with_lists q_lst q_pin q_def].
    by rewrite Hall'.
  - pose proof (ab_vals A) as N. rewrite Hall in N. unfold all_elems. cbn [with_lists q_lst q_pin q_def].
    rewrite Hall'. csimpl in *. by apply NoDup_cons in N as [_ N].
Qed.

Lemma undefer_spec k l id c : l_defer c !! k = Some l -> id ∈ l -> NoDup l -> (forall k, l_defer c !! k <> Some []) ->
  exists d', undefer k l id c = set_defer d' c /\ (forall k', d' !! k' <> Some []) /\
    (forall k', k' <> k -> d' !! k' = l_defer c !! k') /\ default [] (d' !! k) ≡ₚ filter (fun x => x <> id) l.
Proof.
  intros Hl Hi N Hn. unfold undefer. destruct l as [|h t]; [by apply elem_of_nil in Hi|].
  apply NoDup_cons in N as [N1 N2].
  destruct (decide (id = h)) as [->|Hne].
  - assert (Ef : filter (fun x => x <> h) (h :: t) = t).
    { rewrite filter_cons_False by (intros X; by apply X). by apply filter_notin. }
    rewrite Ef. destruct (rev t) as [|z r] eqn:Er.
    + assert (t = []) as -> by (apply (f_equal (@rev nat)) in Er; by rewrite rev_involutive in Er).
      eexists. split; [reflexivity|]. split_and!.
      * intros k' E. apply lookup_delete_Some in E as [_ E]. by apply (Hn k').
      * intros k' Hk. by rewrite lookup_delete_ne.
      * by rewrite lookup_delete.
    + assert (Et : t = rev r ++ [z]) by (apply (f_equal (@rev nat)) in Er; rewrite rev_involutive in Er; cbn in Er; done).
      eexists. split; [reflexivity|]. split_and!.
      * intros k' E. apply lookup_insert_Some in E as [[_ E]|[_ E]]; [done|]. apply lookup_delete_Some in E as [_ E]. by apply (Hn k').
      * intros k' Hk. by rewrite lookup_insert_ne, lookup_delete_ne.
      * rewrite lookup_insert. cbn. rewrite Et. apply Permutation_cons_append.
  - eexists. split; [reflexivity|]. split_and!.
    + intros k' E. apply lookup_insert_Some in E as [[_ E]|[_ E]]; [done|]. by apply (Hn k').
    + intros k' Hk. by rewrite lookup_insert_ne.
    + rewrite lookup_insert, filter_cons_True by done. done.
Qed.

Lemma of_key_nodup c s L P D k : Core c s L P D -> NoDup (of_key k D).
Proof.
  intros A. pose proof (core_ids A) as N. rewrite !fmap_app in N. apply NoDup_app in N as (_ & _ & N).
  apply NoDup_app in N as (_ & _ & N). unfold of_key. clear A. induction D as [|p D IH]; [constructor|].
  csimpl in N. apply NoDup_cons in N as [N1 N2]. rewrite filter_cons. destruct (decide _); [|by apply IH].
  csimpl. apply NoDup_cons. split; [|by apply IH]. intros H. apply N1. apply elem_of_list_fmap in H as (q & E & H).
  apply elem_of_list_filter in H as [_ H]. rewrite E. by apply elem_of_list_fmap_1.
Qed.

Lemma scan_spec ids v c (h : nat -> elem V) : (forall i, i ∈ ids -> l_heap c !! i = Some (h i)) ->
  (scan_ids ids v c = Ok None /\ forall i, i ∈ ids -> e_value (h i) <> v) \/
  (exists i, scan_ids ids v c = Ok (Some i) /\ i ∈ ids /\ e_value (h i) = v).
Proof.
  induction ids as [|i ids IH]; intros Hh.
  - left. split; [done|]. intros i H. by apply elem_of_nil in H.
  - cbn [scan_ids]. unfold load. rewrite (Hh i (elem_of_list_here _ _)). cbn [obind].
    destruct (decide (e_value (h i) = v)) as [E|E].
    + right. exists i. split_and!; [done|left|done].
    + destruct IH as [[E1 E2]|(j & E1 & E2 & E3)].
      * intros j Hj. apply Hh. by right.
      * left. split; [done|]. intros j Hj. apply elem_of_cons in Hj as [->|Hj]; auto.
      * right. exists j. split_and!; [done|by right|done].
Qed.

Lemma elem_rev (t : list nat) (i : nat) : i ∈ rev t <-> i ∈ t.
Proof. rewrite !elem_of_list_In. symmetry. apply in_rev. Qed.

Lemma scan_def c s L P D k v : Abs c s L P D ->
  match l_defer c !! k with
  | None => forall e, e ∈ q_def s -> e_key e <> k
  | Some l =>
     (scan_deferred l v c = Ok None /\ (forall e, e ∈ q_def s -> e_key e = k -> e_value e <> v)) \/
     (exists id e, scan_deferred l v c = Ok (Some id) /\ (id, e) ∈ D /\ e_key e = k /\ e_value e = v /\ id ∈ l)
  end.
Proof.
  intros [A T]. pose proof (ab_defer A k) as Hd. destruct (l_defer c !! k) as [l|] eqn:El; cbn in Hd.
  - destruct l as [|h0 t]; [by apply (ab_nonnil A k) in El|]. cbn [scan_deferred].
    assert (Hin : forall i, i ∈ rev t ++ [h0] <-> i ∈ of_key k D).
    { intros i. rewrite <- Hd. rewrite elem_of_app, elem_of_list_singleton, elem_of_cons, elem_rev. tauto. }
    pose (h := fun i => match l_heap c !! i with Some e => e | None => Elem ""%string v 0 0 0 end).
    destruct (@scan_spec (rev t ++ [h0]) v c h) as [[E1 E2]|(i & E1 & E2 & E3)].
    + intros i Hi. apply Hin, of_key_elem in Hi as (e & H & _). unfold h.
      assert (X : l_heap c !! i = Some e) by (apply (core_look _ _ A); rewrite !elem_of_app; auto). by rewrite X.
    + left. split; [done|]. intros e He Hk. rewrite (ab_def A) in He. apply elem_of_list_fmap in He as ([i x] & Ex & Hx). cbn in Ex. subst x.
      assert (X : l_heap c !! i = Some e) by (apply (core_look _ _ A); rewrite !elem_of_app; auto).
      specialize (E2 i). unfold h in E2. rewrite X in E2. apply E2. apply Hin, of_key_elem. eauto.
    + right. apply Hin in E2 as E2'. apply of_key_elem in E2' as (e & H & Hk). exists i, e.
      assert (X : l_heap c !! i = Some e) by (apply (core_look _ _ A); rewrite !elem_of_app; auto).
      unfold h in E3. rewrite X in E3. split_and!; try done. rewrite elem_of_cons. apply elem_of_app in E2 as [E2|E2].
      * right. by rewrite elem_rev in E2.
      * left. by apply elem_of_list_singleton in E2.
  - intros e He Hk. rewrite (ab_def A) in He. apply elem_of_list_fmap in He as ([i x] & Ex & Hx). cbn in Ex. subst x.
    apply Permutation_nil in Hd. assert (i ∈ of_key k D) by (apply of_key_elem; eauto). rewrite Hd in H. by apply elem_of_nil in H.
Qed.

(** A value is held by at most one element. *)
Lemma value_inj c s e1 e2 : Rep c s -> e1 ∈ all_elems s -> e2 ∈ all_elems s -> e_value e1 = e_value e2 -> e1 = e2.
Proof.
  intros (L & P & D & [A _]) H1 H2 E. pose proof (ab_vals A) as N. revert N H1 H2 E. generalize (all_elems s). intros l.
  induction l as [|x l IH]; intros N H1 H2 E; [by apply elem_of_nil in H1|].
  csimpl in N. apply NoDup_cons in N as [N1 N2]. apply elem_of_cons in H1, H2.
  destruct H1 as [->|H1], H2 as [->|H2]; auto; exfalso; apply N1.
  - rewrite E. by apply elem_of_list_fmap_1.
  - rewrite <- E. by apply elem_of_list_fmap_1.
Qed.

Definition at_val (v : V) (g : elem V -> elem V) (l : list (elem V)) : list (elem V) :=
  (fun x => if decide (e_value x = v) then g x else x) <$> l.
Definition i_undefer (e : elem V) (s : ideal V) : ideal V :=
  if e_pin e =? 1 then with_lists (q_lst s) (q_pin s) (filter (fun x => e_value x <> e_value e) (q_def s)) s
  else with_lists (q_lst s) (q_pin s) (at_val (e_value e) unpinned (q_def s)) s.
Definition r_undefer (e : elem V) (s : ideal V) : list (elem V) := if e_pin e =? 1 then [e] else [].

Lemma val_out v l : (forall x, x ∈ l -> e_value x <> v) -> filter (fun x : elem V => e_value x <> v) l = l /\ forall g, at_val v g l = l.
Proof.
  intros H. split; [by apply filter_all|]. intros g. unfold at_val. rewrite <- (list_fmap_id l) at 2. apply list_fmap_ext.
  intros i x Hx. rewrite decide_False; [done|]. apply H. by eapply elem_of_list_lookup_2.
Qed.

Lemma op_release_deferred c s e : Rep c s -> e ∈ q_def s ->
  exists c', runs (Release passive clk (e_key e) (e_value e)) c (kv <$> r_undefer e s) pair c' /\ Rep c' (i_undefer e s).
Proof.
  intros R H. pose proof R as (L & P & D & A). pose proof (scan_def (e_key e) (e_value e) A) as Hs.
  unfold Release, ReleaseWithOptions.
  destruct (l_defer c !! e_key e) as [l|] eqn:El; [|by apply Hs in H].
  destruct Hs as [[_ Hs]|(id & e0 & Hs & Hd & Hk & Hv & Hl)]; [by destruct (Hs e H eq_refl)|].
  assert (Hall : forall x, x ∈ q_def s -> x ∈ all_elems s) by (intros; unfold all_elems; rewrite !elem_of_app; auto).
  assert (e0 = e) as ->.
  { eapply value_inj; [exact R| | |done]; apply Hall; [|done]. rewrite (ab_def (proj1 A)). apply elem_of_list_fmap. by exists (id, e0). }
  assert (Hp : 0 < e_pin e). { pose proof (ab_defpin (proj1 A)) as F. rewrite Forall_forall in F. by apply F. }
  assert (Hpl : 0 <? e_pin e = true) by by apply Z.ltb_lt.
  destruct (elem_pos R (Hall e H)) as [_ Hu].
  apply elem_of_list_split in Hd as (Da & Db & ->).
  assert (Hh : l_heap c !! id = Some e) by (apply (core_look _ _ (proj1 A)); rewrite !elem_of_app, elem_of_cons; auto).
  assert (Hvals : NoDup (e_value <$> (Da ++ (id, e) :: Db).*2)).
  { pose proof (ab_vals (proj1 A)) as N. unfold all_elems in N. rewrite (ab_def (proj1 A)) in N. rewrite !(fmap_app e_value (q_lst s)), !(fmap_app e_value (q_pin s)) in N.
    apply NoDup_app in N as (_ & _ & N). by apply NoDup_app in N as (_ & _ & N). }
  rewrite !fmap_app in Hvals. csimpl in Hvals. apply NoDup_app in Hvals as (_ & N1 & N2). apply NoDup_cons in N2 as [N2 _].
  destruct (@val_out (e_value e) Da.*2) as [Q1 Q2].
  { intros x Hx Ex. apply (N1 (e_value e)); [|left]. rewrite <- Ex. by apply elem_of_list_fmap_1. }
  destruct (@val_out (e_value e) Db.*2) as [Q3 Q4].
  { intros x Hx Ex. apply N2. rewrite <- Ex. by apply elem_of_list_fmap_1. }
  unfold i_undefer, r_undefer. rewrite (ab_def (proj1 A)), fmap_app. csimpl. rewrite !filter_app, Q1. rewrite filter_cons_False by (intros X; by apply X). rewrite Q3.
  assert (Ea : at_val (e_value e) unpinned (Da.*2 ++ e :: Db.*2) = Da.*2 ++ unpinned e :: Db.*2).
  { unfold at_val in *. rewrite fmap_app. csimpl. rewrite decide_True by done. by rewrite Q2, Q4. }
  rewrite Ea.
  destruct (e_pin e =? 1) eqn:E1.
  - apply Z.eqb_eq in E1.
    assert (Nl : NoDup l). { pose proof (ab_defer (proj1 A) (e_key e)) as X. rewrite El in X. cbn in X.
      rewrite X. eapply of_key_nodup, A. }
    destruct (@undefer_spec (e_key e) l id c El Hl Nl (ab_nonnil (proj1 A))) as (d' & Hd1 & Hd2 & Hd3 & Hd4).
    assert (X : Abs (Lru (delete id (l_heap c)) (l_next_id c) (l_table c) d' (l_list c) (l_units c - e_units e) (l_max c) (l_pinned c) (l_idle c) (l_lru c) (l_tick c))
      (with_lists (q_lst s) (q_pin s) (Da.*2 ++ Db.*2) s) L P (Da ++ Db)).
    { apply drop_deferred; [done| |done].
      intros k. pose proof (core_ids (proj1 A)) as Ni. rewrite !fmap_app in Ni. csimpl in Ni. apply NoDup_app in Ni as (_ & _ & Ni). apply NoDup_app in Ni as (_ & _ & Ni).
      apply NoDup_app in Ni as (_ & Ni1 & Ni2). apply NoDup_cons in Ni2 as [Ni2 _].
      pose proof (ab_defer (proj1 A) k) as X. unfold of_key in *. rewrite !filter_app, !fmap_app in *.
      destruct (decide (k = e_key e)) as [->|Hk'].
      - rewrite Hd4. rewrite El in X. pose proof (X : l ≡ₚ _) as X1. rewrite X1. rewrite filter_cons_True by done. csimpl. rewrite filter_app.
        rewrite filter_cons_False by (intros Y; by apply Y).
        rewrite !filter_notin; [done| |].
        + intros Y. apply Ni2. apply elem_of_list_fmap in Y as (p & -> & Y). apply elem_of_list_filter in Y as [_ Y]. by apply elem_of_list_fmap_1.
        + intros Y. apply (Ni1 id); [|left]. apply elem_of_list_fmap in Y as (p & -> & Y). apply elem_of_list_filter in Y as [_ Y]. by apply elem_of_list_fmap_1.
      - rewrite Hd3, X by done. rewrite filter_cons_False by (cbn; congruence). done. }
    eexists. split; [|eexists L, P, (Da ++ Db); exact X].
    intros u. cbn [fst snd]. rewrite El, Hs. cbn [obind]. unfold load. rewrite Hh. cbn [obind]. rewrite Hpl. cbn [assert_ obind].
    assert (E2 : e_pin e - 1 =? 0 = true) by (apply Z.eqb_eq; lia). rewrite E2.
    assert (Eu : undefer (e_key e) l id (store id (set_pin (e_pin e - 1) e) c) = set_defer d' (store id (set_pin (e_pin e - 1) e) c)).
    { revert Hd1. unfold undefer. destruct l as [|h0 t]; [done|]. destruct (decide (id = h0)); [destruct (rev t)|]; cbn [store set_heap l_defer];
        intros Y; apply (f_equal (@l_defer V)) in Y; cbn in Y; by rewrite <- Y. }
    rewrite Eu. unfold Discard, load. proj. cbn [fst snd]. rewrite lookup_insert. cbn [obind]. cbn [set_pin e_pin]. rewrite E2.
    cbn [assert_ obind set_pin e_units e_key e_value].
    unfold passive. cbn [fst snd]. change (kv <$> [e]) with [(e_key e, e_value e)]. cbn [ofold].
    rewrite !obind_assoc. apply obind_ext. intros u'. cbn [obind fst snd]. proj. rewrite lookup_insert.
    by rewrite delete_insert_delete.
  - apply Z.eqb_neq in E1.
    pose proof (@update_deferred V clk c s L P Da id e Db (unpinned e) (l_units c) A) as X.
    eexists. split; [|eexists L, P, _; apply X; try done].
    + intros u. cbn [fst snd]. rewrite El, Hs. cbn [obind]. unfold load. rewrite Hh. cbn [obind]. rewrite Hpl. cbn [assert_ obind].
      assert (E2 : e_pin e - 1 =? 0 = false) by (apply Z.eqb_neq; lia). rewrite E2. proj. reflexivity.
    + unfold unpinned. cbn. lia.
    + unfold unpinned. cbn. lia.
Qed.
End ops.
