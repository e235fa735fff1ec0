(** The user's books agree with the cache (proof-internal vocabulary). *)
From stdpp Require Import gmap.
From Verif Require Import Base Proto Lru LruSim LruOps LruOps2 LruSpec.
Local Open Scope Z_scope.
Set Implicit Arguments.
Local Arguments sum_Z : simpl never.
Local Arguments dead : simpl never.

Section inv.
Context {V : Type} `{!EqDecision V}.
Implicit Types (c : lru V) (s : ideal V) (e : elem V) (b : books V) (o : op V).
Variable clk : nat -> Z.
Variable ord : hash_order.

(** ** Each call in the list view *)
Definition sim o s (r : option V) (es : list (elem V)) s' : Prop :=
  match o with
  | OInsert k v u =>
      let s1 := i_evict (i_insert1 clk k v u s) in
      let e := new_elem k v u (clk (q_tick s)) in
      e ∈ cached_elems s1 /\ s' = i_release clk e s1 /\
      es = (r_remove k s ++ r_evict (i_insert1 clk k v u s)) ++ r_release clk e s1 /\ r = None
  | OInsertPinned k v u =>
      s' = i_evict (i_insert1 clk k v u s) /\ es = r_remove k s ++ r_evict (i_insert1 clk k v u s) /\ r = None
  | OLookup k => es = r_expire clk s /\
      ((exists e, e ∈ cached_elems (i_expire clk s) /\ e_key e = k /\ r = Some (e_value e) /\ s' = i_pin k e (i_expire clk s)) \/
       (k ∉ e_key <$> cached_elems (i_expire clk s) /\ r = None /\ s' = i_expire clk s))
  | ORelease k v => r = None /\ exists e, e_key e = k /\ e_value e = v /\ 0 < e_pin e /\
      ((e ∈ q_def s /\ s' = i_undefer e s /\ es = r_undefer e s) \/
       (e ∈ cached_elems s /\ s' = i_release clk e s /\ es = r_release clk e s))
  | ORemove k => r = None /\ s' = i_remove k s /\ es = r_remove k s
  | ORemoveAll => r = None /\ exists gs, gs ≡ₚ cached_elems s /\ es = dead gs /\ s' = with_lists [] [] (detached gs (q_def s)) s
  | ORemoveUnpinned => r = None /\ es = dead (q_lst s) /\ s' = i_unpinned s
  | OClear => r = None /\ es ≡ₚ all_elems s /\ s' = with_lists [] [] [] s
  | ORemoveExpired => r = None /\ es = r_expire clk s /\ s' = i_expire clk s
  | OSetMaxSize n => r = None /\ es = r_evict (with_max n s) /\ s' = i_evict (with_max n s)
  | OUpdateSize k v u => r = None /\ es = r_evict (i_resize k v u s) /\ s' = i_evict (i_resize k v u s)
  | OSetTimeout t => r = None /\ es = r_expire clk (with_idle (timeout_of t) s) /\ s' = i_expire clk (with_idle (timeout_of t) s)
  end.
Definition lawful o s : Prop :=
  match o with
  | OInsert k v u | OInsertPinned k v u => v ∉ e_value <$> all_elems s /\ 0 <= u
  | ORelease k v => exists e, e ∈ all_elems s /\ e_key e = k /\ e_value e = v /\ 0 < e_pin e
  | OClear => Forall (fun e => e_pin e = 0) (all_elems s)
  | OUpdateSize _ _ u => 0 <= u
  | OSetTimeout (Some n) => 0 <= n
  | _ => True
  end.

Definition log (u : list (string * V)) (x : string * V) : outcome (list (string * V)) := Ok (u ++ [x]).
Lemma log_all u l : ofold log u l = Ok (u ++ l).
Proof.
  revert u. induction l as [|x l IH]; intros u; cbn [ofold]; [by rewrite app_nil_r|].
  cbn [log obind]. rewrite IH. by rewrite <- app_assoc.
Qed.
Lemma runs_log {R} (o : world (V:=V) (U:=list (string * V)) -> outcome R) c l ret c' :
  runs log o c l ret c' -> o (c, []) = Ok (ret c' l).
Proof. intros H. rewrite H, log_all. done. Qed.

Lemma plain_log (o : world (V:=V) (U:=list (string * V)) -> outcome (world (V:=V) (U:=list (string * V)))) c l c' :
  runs log o c l pair c' -> (let! w := o (c, []) in Ok (w.1, @None V, w.2)) = Ok (c', None, l).
Proof. intros H. by rewrite (runs_log H). Qed.

Lemma step_sim c s o : Rep c s -> Timed s -> lawful o s ->
  exists c' r es s', step clk ord o c = Ok (c', r, kv <$> es) /\ Rep c' s' /\ sim o s r es s'.
Proof.
  intros R T Hl. pose proof (rep_len R) as Hlen.
  assert (Hf : (length (q_lst s) < 2 + l_next_id c)%nat) by lia.
  assert (Hf' : (S (length (q_lst s)) < 2 + l_next_id c)%nat) by lia.
  assert (Hrec : forall k v, recorder k v = passive log k v) by done.
  destruct o as [k v u|k v u|k|k v|k| | | | |n|k v u|t]; cbn [lawful sim] in *; unfold step.
  - destruct Hl as [Hv Hu]. destruct (op_insert log clk k R Hf' Hu Hv) as (c' & R1 & P1 & Hc).
    eexists c', None, _, _. split; [exact (plain_log R1)|]. eauto 8.
  - destruct Hl as [Hv Hu]. destruct (op_insertpinned log clk k R Hf' Hu Hv) as (c' & R1 & P1).
    eexists c', None, _, _. split; [exact (plain_log R1)|]. eauto 8.
  - destruct (decide (k ∈ e_key <$> cached_elems (i_expire clk s))) as [H|H].
    + apply elem_of_list_fmap in H as (e & -> & H). destruct (op_lookup_hit log clk R T Hf H) as (c' & R1 & P1).
      eexists c', (Some (e_value e)), (r_expire clk s), _. split; [|split; [exact P1|]].
      * change ((let! wr := Lookup (passive log) clk (2 + l_next_id c) (e_key e) (c, []) in Ok (wr.1.1, wr.2, wr.1.2)) = Ok (c', Some (e_value e), kv <$> r_expire clk s)).
        by rewrite (runs_log R1).
      * split; [done|]. left. eauto 8.
    + destruct (op_lookup_miss log clk R T Hf H) as (c' & R1 & P1).
      eexists c', None, (r_expire clk s), _. split; [|split; [exact P1|]].
      * change ((let! wr := Lookup (passive log) clk (2 + l_next_id c) k (c, []) in Ok (wr.1.1, wr.2, wr.1.2)) = Ok (c', None, kv <$> r_expire clk s)).
        by rewrite (runs_log R1).
      * split; [done|]. right. eauto 8.
  - destruct Hl as (e & He & <- & <- & Hp). destruct (op_release log clk R He Hp) as (c' & es & s' & R1 & P1 & X).
    exists c', None, es, s'. split; [exact (plain_log R1)|]. eauto 10.
  - destruct (op_remove log k R) as (c' & R1 & P1). eexists c', None, _, _. split; [exact (plain_log R1)|]. eauto.
  - destruct (op_removeall log ord R) as (c' & gs & E & R1 & P1). eexists c', None, _, _. split; [exact (plain_log R1)|]. eauto 8.
  - destruct (op_unpinned log R Hf) as (c' & R1 & P1). eexists c', None, _, _. split; [exact (plain_log R1)|]. eauto.
  - destruct (op_clear log ord R Hl) as (c' & gs & E & R1 & P1). eexists c', None, _, _. split; [exact (plain_log R1)|]. eauto.
  - destruct (op_expire log clk R T Hf) as (c' & R1 & P1). eexists c', None, _, _. split; [exact (plain_log R1)|]. eauto.
  - destruct (op_setmax log n R Hf) as (c' & R1 & P1). eexists c', None, _, _. split; [exact (plain_log R1)|]. eauto.
  - destruct (op_updatesize log clk k v R Hf Hl) as (c' & R1 & P1). eexists c', None, _, _. split; [exact (plain_log R1)|]. eauto.
  - destruct (op_settimeout (o := t) log clk R T Hf) as (c' & R1 & P1).
    { intros n ->. done. }
    eexists c', None, _, _. split; [exact (plain_log R1)|]. eauto.
Qed.

(** ** Leaving the cache *)
Record leave s (gs : list (elem V)) s' : Prop := {
  lv_cached : cached_elems s ≡ₚ gs ++ cached_elems s';
  lv_list : q_lst s' `sublist_of` q_lst s;
  lv_def : q_def s' ≡ₚ filter (fun e => e_pin e <> 0) gs ++ q_def s;
  lv_lru : q_lru s' = q_lru s; lv_max : q_max s' = q_max s; lv_idle : q_idle s' = q_idle s;
  lv_tick : (q_tick s <= q_tick s')%nat }.

Lemma sub_filter {A} (P : A -> Prop) `{!∀ x, Decision (P x)} (l : list A) : filter P l `sublist_of` l.
Proof. induction l as [|x l IH]; [constructor|]. rewrite filter_cons. destruct (decide _); by constructor. Qed.
Lemma split_pin (F : list (elem V)) : F ≡ₚ dead F ++ filter (fun e => e_pin e <> 0) F.
Proof.
  unfold dead. induction F as [|x l IH]; [done|]. destruct (decide (e_pin x = 0)) as [E|E].
  - rewrite filter_cons_True by done. rewrite filter_cons_False by (intros X; by apply X). cbn. by rewrite <- IH.
  - rewrite filter_cons_False by done. rewrite (filter_cons_True (fun x => e_pin x <> 0)) by done. rewrite <- Permutation_middle. by rewrite <- IH.
Qed.
Lemma leave_all s gs s' : leave s gs s' -> all_elems s ≡ₚ dead gs ++ all_elems s'.
Proof.
  intros [H1 _ H3 _ _ _ _]. unfold all_elems. rewrite !app_assoc. fold (cached_elems s). rewrite <- !app_assoc. rewrite (app_assoc (q_lst s')). fold (cached_elems s').
  rewrite H1, H3. rewrite (split_pin gs) at 1. solve_Permutation.
Qed.

Lemma split_key (k : string) (l : list (elem V)) : l ≡ₚ filter (fun x => e_key x = k) l ++ filter (fun x => e_key x <> k) l.
Proof.
  induction l as [|x l IH]; [done|]. destruct (decide (e_key x = k)) as [E|E].
  - rewrite filter_cons_True by done. rewrite filter_cons_False by (intros H; by apply H). cbn. by rewrite <- IH.
  - rewrite filter_cons_False by done. rewrite (filter_cons_True (fun x => e_key x <> k)) by done. rewrite <- Permutation_middle. by rewrite <- IH.
Qed.
Lemma leave_remove k s : leave s (filter (fun x => e_key x = k) (cached_elems s)) (i_remove k s).
Proof.
  constructor; cbn [i_remove with_lists q_lst q_pin q_def q_lru q_max q_idle q_tick]; try done.
  - rewrite (split_key k (cached_elems s)) at 1. f_equiv. unfold cached_elems. cbn [with_lists q_lst q_pin q_def]. by rewrite filter_app.
  - apply sub_filter.
  - apply detached_perm.
Qed.

Lemma evict_perm mx tot (r : list (elem V)) : r ≡ₚ (evict mx tot r).2 ++ (evict mx tot r).1.
Proof.
  revert tot. induction r as [|x r IH]; intros tot; [done|]. cbn [evict]. destruct (mx <? tot); [|done].
  destruct (e_pin x =? 0); cbn [fst snd].
  - cbn. constructor. apply IH.
  - rewrite <- Permutation_middle. constructor. apply IH.
Qed.
Lemma evict_pin mx tot (r : list (elem V)) : Forall (fun e => e_pin e = 0) (evict mx tot r).2.
Proof.
  revert tot. induction r as [|x r IH]; intros tot; [constructor|]. cbn [evict]. destruct (mx <? tot); [|constructor].
  destruct (e_pin x =? 0) eqn:E; cbn [fst snd]; [|done]. constructor; [by apply Z.eqb_eq|done].
Qed.
Lemma evict_sub mx tot (r : list (elem V)) : (evict mx tot r).1 `sublist_of` r.
Proof.
  revert tot. induction r as [|x r IH]; intros tot; [constructor|]. cbn [evict]. destruct (mx <? tot); [|done].
  destruct (e_pin x =? 0); cbn [fst snd]; by constructor.
Qed.
Lemma dead_id (l : list (elem V)) : Forall (fun e => e_pin e = 0) l -> dead l = l /\ filter (fun e => e_pin e <> 0) l = [].
Proof.
  unfold dead. induction 1 as [|x l Hx _ IH]; [done|]. destruct IH as [I1 I2].
  rewrite filter_cons_True by done. rewrite filter_cons_False by (intros X; by apply X). by rewrite I1, I2.
Qed.
Lemma sublist_rev {A} (l1 l2 : list A) : l1 `sublist_of` l2 -> rev l1 `sublist_of` rev l2.
Proof.
  intros H. induction H as [|x a b' H IH|x a b' H IH]; cbn [rev]; [constructor| |].
  - by apply sublist_app.
  - by apply sublist_inserts_r.
Qed.
Lemma leave_evict s : leave s (r_evict s) (i_evict s).
Proof.
  unfold r_evict, i_evict.
  constructor; cbn [with_lists q_lst q_pin q_def q_lru q_max q_idle q_tick]; try done.
  - unfold cached_elems. cbn [with_lists q_lst q_pin q_def]. rewrite app_assoc. f_equiv. 
    rewrite <- (Permutation_rev (evict (q_max s) (total s) (rev (q_lst s))).1). rewrite <- evict_perm. apply Permutation_rev.
  - rewrite <- (rev_involutive (q_lst s)) at 2. apply sublist_rev, evict_sub.
  - destruct (dead_id (evict_pin (q_max s) (total s) (rev (q_lst s)))) as [_ ->]. done.
Qed.

Lemma expire_split thr (r : list (elem V)) : r = (expire thr r).2 ++ (expire thr r).1.
Proof. induction r as [|x r IH]; [done|]. cbn [expire]. destruct (e_last x <? thr); [|done]. cbn. by f_equal. Qed.
Definition expired s : list (elem V) := if 0 <=? q_idle s then (expire (threshold clk s) (rev (q_lst s))).2 else [].
Lemma leave_expire s : leave s (expired s) (i_expire clk s).
Proof.
  unfold i_expire, expired. destruct (0 <=? q_idle s); [|by constructor].
  constructor; cbn [with_tick with_lists q_lst q_pin q_def q_lru q_max q_idle q_tick]; try done.
  - unfold cached_elems. cbn [with_tick with_lists q_lst q_pin q_def]. rewrite app_assoc. f_equiv.
    rewrite <- (Permutation_rev (expire (threshold clk s) (rev (q_lst s))).1). rewrite <- expire_split. apply Permutation_rev.
  - rewrite <- (rev_involutive (q_lst s)) at 2. apply sublist_rev.
    rewrite (expire_split (threshold clk s) (rev (q_lst s))) at 2. by apply sublist_inserts_l.
  - apply detached_perm.
  - lia.
Qed.
Lemma r_expire_dead s : r_expire clk s = dead (expired s).
Proof. unfold r_expire, expired. by destruct (0 <=? q_idle s). Qed.
Lemma r_evict_dead s : r_evict s = dead (r_evict s).
Proof. symmetry. apply dead_id. apply evict_pin. Qed.

Lemma leave_unpinned s : leave s (dead (q_lst s)) (i_unpinned s).
Proof.
  constructor; cbn [i_unpinned with_lists q_lst q_pin q_def q_lru q_max q_idle q_tick]; try done.
  - unfold cached_elems. cbn [i_unpinned with_lists q_lst q_pin q_def]. rewrite app_assoc. f_equiv. apply split_pin.
  - apply sub_filter.
  - assert (F : Forall (fun e => e_pin e = 0) (dead (q_lst s))).
    { apply Forall_forall. intros x Hx. unfold dead in Hx. by apply elem_of_list_filter in Hx as [Hx _]. }
    destruct (dead_id F) as [_ ->]. done.
Qed.
Lemma dead_dead (l : list (elem V)) : dead (dead l) = dead l.
Proof.
  apply dead_id. apply Forall_forall. intros x Hx. unfold dead in Hx. by apply elem_of_list_filter in Hx as [Hx _].
Qed.
Lemma leave_all_gone s gs : gs ≡ₚ cached_elems s -> leave s gs (with_lists [] [] (detached gs (q_def s)) s).
Proof.
  intros E. constructor; cbn [with_lists q_lst q_pin q_def q_lru q_max q_idle q_tick]; try done.
  - unfold cached_elems at 2. cbn. by rewrite app_nil_r.
  - apply sublist_nil_l.
  - apply detached_perm.
Qed.
End inv.
