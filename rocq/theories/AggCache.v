(** The cache as an aggregator uses it: nothing stays pinned between calls and every entry has size 1
    (proof-internal vocabulary). *)
From Verif Require Import Base Proto Lru LruSim LruOps LruOps2 LruInv Agg.
From stdpp Require Import gmap list.
Local Open Scope Z_scope.
Set Implicit Arguments.
Local Arguments sum_Z : simpl never.
Local Arguments dead : simpl never.

Record ent (E : Type) := Ent { n_key : string; n_val : E; n_last : Z }.
Arguments Ent {E}. Arguments n_key {E}. Arguments n_val {E}. Arguments n_last {E}.

Lemma sorted_filter {B} (R : B -> B -> Prop) (P : B -> Prop) `{!∀ x, Decision (P x)} l : StronglySorted R l -> StronglySorted R (filter P l).
Proof.
  induction 1 as [|x l S IH F]; [constructor|]. destruct (decide (P x)).
  - rewrite filter_cons_True by done. constructor; [done|]. apply Forall_forall. intros y Hy. apply elem_of_list_filter in Hy as [_ Hy].
    rewrite Forall_forall in F. auto.
  - by rewrite filter_cons_False.
Qed.
Lemma fmap_rev {B C} (g : B -> C) (l : list B) : g <$> rev l = rev (g <$> l).
Proof. induction l as [|x l IH]; [done|]. cbn [rev]. rewrite fmap_app, IH. done. Qed.
Lemma sorted_sub {B} (R : B -> B -> Prop) l l' : l' `sublist_of` l -> StronglySorted R l -> StronglySorted R l'.
Proof.
  induction 1 as [|x a b H IH|x a b H IH]; intros S; [done| |].
  - apply StronglySorted_inv in S as [S F]. constructor; [auto|]. apply Forall_forall. intros y Hy. rewrite Forall_forall in F.
    apply F. eapply sublist_submseteq, elem_of_submseteq in H; done.
  - apply StronglySorted_inv in S as [S F]. auto.
Qed.

Section agg.
Context {E A : Type}.
Variable gone : E -> list A -> list A.
Variable clk : nat -> Z.
Hypothesis Hmono : forall i j, (i <= j)%nat -> clk i <= clk j.
Hypothesis Hpos : forall i, 0 <= clk i.
Variable ord : hash_order.
(* capacity, idle limit, mode *)
Variables (mx idle : Z) (mode : bool).

Notation cell := (nat * ent E)%type.
Implicit Types (l : list cell) (p q : cell) (u : pool E A) (c : lru nat).
Notation del := (passive (delete_with gone)).

Definition mk p : elem nat := Elem (n_key p.2) p.1 0 1 (n_last p.2).
Definition held p : nat * E := (p.1, n_val p.2).
Definition view l (t : nat) : ideal nat := Ideal (mk <$> l) [] [] mx idle mode t.
Definition emit (gs : list cell) (items : list A) : list A := foldl (fun it p => gone (n_val p.2) it) items gs.
Definition later p q : Prop := n_last q.2 <= n_last p.2.

Record ARep c u l : Prop := {
  ar_rep : Rep c (view l (l_tick c));
  ar_vals : map_to_list (p_vals u) ≡ₚ held <$> l;
  ar_next : Forall (fun p => (p.1 < p_next u)%nat) l;
  ar_sorted : StronglySorted later l;
  ar_past : Forall (fun p => 0 <= n_last p.2 <= clk (l_tick c)) l;
  ar_len : Z.of_nat (length l) <= mx;
  ar_mx : 1 <= mx }.

Lemma mk_keys l : e_key <$> (mk <$> l) = n_key <$> l.*2.
Proof. rewrite <- !list_fmap_compose. by apply list_fmap_ext. Qed.
Lemma mk_values l : e_value <$> (mk <$> l) = l.*1.
Proof. rewrite <- !list_fmap_compose. by apply list_fmap_ext. Qed.
Lemma ar_keys c u l : ARep c u l -> NoDup (n_key <$> l.*2).
Proof. intros H. pose proof (rep_keys (ar_rep H)) as N. unfold cached_elems in N. cbn [view q_lst q_pin] in N. by rewrite app_nil_r, mk_keys in N. Qed.
Lemma ar_addrs c u l : ARep c u l -> NoDup l.*1.
Proof. intros H. pose proof (rep_vals (ar_rep H)) as N. unfold all_elems in N. cbn [view q_lst q_pin q_def] in N. by rewrite !app_nil_r, mk_values in N. Qed.
Lemma ar_fuel c u l : ARep c u l -> (length l < 2 + l_next_id c)%nat /\ (S (length l) < 2 + l_next_id c)%nat.
Proof. intros H. pose proof (rep_len (ar_rep H)) as N. cbn [view q_lst] in N. rewrite fmap_length in N. lia. Qed.
Lemma ar_get c u l p : ARep c u l -> p ∈ l -> p_vals u !! p.1 = Some (n_val p.2).
Proof. intros H Hp. apply elem_of_map_to_list. rewrite (ar_vals H). apply elem_of_list_fmap. by exists p. Qed.
Lemma ar_timed c u l : ARep c u l -> Timed (view l (l_tick c)).
Proof.
  intros H. split; cbn [view q_lst].
  - pose proof (ar_sorted H) as S. induction S as [|x l' S IH F]; [constructor|]. 
    cbn. constructor; [|].
    + clear -S. induction S as [|y l S IH F]; cbn; constructor; [done|]. apply Forall_fmap. eapply Forall_impl; [exact F|]. done.
    + apply Forall_fmap. eapply Forall_impl; [exact F|]. done.
  - apply Forall_fmap. eapply Forall_impl; [exact (ar_past H)|]. intros p Hp. cbn in *. lia.
Qed.

Lemma ar_key_inj c u l p q : ARep c u l -> p ∈ l -> q ∈ l -> n_key p.2 = n_key q.2 -> p = q.
Proof.
  intros H Hp Hq En. pose proof (ar_keys H) as N. rewrite <- list_fmap_compose in N.
  apply elem_of_list_lookup in Hp as [i Hi]. apply elem_of_list_lookup in Hq as [j Hj].
  assert (i = j); [|congruence]. eapply NoDup_lookup; [exact N| |]; rewrite list_lookup_fmap.
  - rewrite Hi. done.
  - rewrite Hj. cbn. by rewrite En.
Qed.

(** *** deleting a batch *)
Lemma free_batch gs l u : map_to_list (p_vals u) ≡ₚ held <$> (gs ++ l) -> NoDup (gs ++ l).*1 ->
  exists u', ofold (delete_with gone) u (kv <$> (mk <$> gs)) = Ok u' /\ map_to_list (p_vals u') ≡ₚ held <$> l /\
    p_next u' = p_next u /\ p_items u' = emit gs (p_items u).
Proof.
  revert u. induction gs as [|g gs IH]; intros u Hv N; cbn [app] in *; [by exists u|].
  csimpl in *. apply NoDup_cons in N as [Ng N].
  assert (Hg : p_vals u !! g.1 = Some (n_val g.2)).
  { apply elem_of_map_to_list. rewrite Hv. left. }
  assert (Hd : map_to_list (delete g.1 (p_vals u)) ≡ₚ held <$> (gs ++ l)).
  { rewrite <- (insert_id _ _ _ Hg) in Hv. rewrite <- insert_delete_insert, map_to_list_insert in Hv by apply lookup_delete.
    eapply Permutation_cons_inv, Hv. }
  destruct (IH (Pool (delete g.1 (p_vals u)) (p_next u) (gone (n_val g.2) (p_items u)))) as (u' & E1 & E2 & E3 & E4); [done|done|].
  exists u'. split; [|done]. cbn [ofold]. unfold delete_with at 1. unfold deref. cbn [kv mk e_value e_key snd]. rewrite Hg. cbn [obind].
  unfold free. cbn [with_items p_vals p_next p_items]. rewrite Hg. exact E1.
Qed.
Lemma runs_free {R} (o : world -> outcome R) c gs ret c' l u :
  runs (delete_with gone) o c (kv <$> (mk <$> gs)) ret c' ->
  map_to_list (p_vals u) ≡ₚ held <$> (gs ++ l) -> NoDup (gs ++ l).*1 ->
  exists u', o (c, u) = Ok (ret c' u') /\ map_to_list (p_vals u') ≡ₚ held <$> l /\ p_next u' = p_next u /\ p_items u' = emit gs (p_items u).
Proof.
  intros H Hv N. destruct (free_batch _ _ _ Hv N) as (u' & E1 & E2). exists u'. split; [|done]. rewrite H, E1. done.
Qed.

(** *** expiry *)
Definition fresh_cells (t : Z) l : list cell := if 0 <=? idle then filter (fun p => t - idle <= n_last p.2) l else l.
Definition stale_cells (t : Z) l : list cell := if 0 <=? idle then rev (filter (fun p => n_last p.2 < t - idle) l) else [].
Definition reads : nat := if 0 <=? idle then 1 else 0.

Lemma expire_sorted thr l : StronglySorted later l ->
  expire thr (rev (mk <$> l)) = (rev (mk <$> filter (fun p => thr <= n_last p.2) l), mk <$> rev (filter (fun p => n_last p.2 < thr) l)).
Proof.
  intros S.
  assert (Q : exists l1 l2, l = l1 ++ l2 /\ filter (fun p => thr <= n_last p.2) l = l1 /\ filter (fun p => n_last p.2 < thr) l = l2).
  { induction S as [|x l S IH F]; [by exists [], []|]. destruct IH as (l1 & l2 & -> & E1 & E2).
    destruct (decide (thr <= n_last x.2)) as [H|H].
    - rewrite filter_cons_True, filter_cons_False by lia. exists (x :: l1), l2. by rewrite E1, E2.
    - rewrite filter_cons_False, filter_cons_True by lia. rewrite E1, E2.
      assert (l1 = []) as ->.
      { destruct l1 as [|y l1]; [done|]. exfalso. assert (y ∈ filter (fun p => thr <= n_last p.2) ((y :: l1) ++ l2)) as Hy by (rewrite E1; left).
        apply elem_of_list_filter in Hy as [Hy _]. cbn [app] in F. apply Forall_cons in F as [F _]. unfold later in F. lia. }
      by exists [], (x :: l2). }
  destruct Q as (l1 & l2 & -> & -> & E2).
  assert (H2 : Forall (fun p => n_last p.2 < thr) l2). { rewrite <- E2. apply Forall_forall. intros p Hp. apply elem_of_list_filter in Hp as [Hp _]. exact Hp. }
  assert (H1 : Forall (fun p => thr <= n_last p.2) l1).
  { apply Forall_forall. intros p Hp. rewrite filter_app in E2. assert (Z : filter (fun p => n_last p.2 < thr) l1 = []).
    { assert (length (filter (fun p => n_last p.2 < thr) l2) = length l2).
      { f_equal. apply filter_all. by apply Forall_forall. }
      apply (f_equal length) in E2. rewrite app_length in E2. apply nil_length_inv. lia. }
    destruct (decide (n_last p.2 < thr)); [|lia]. assert (p ∈ filter (fun p => n_last p.2 < thr) l1) by by apply elem_of_list_filter. rewrite Z in *. set_solver. }
  rewrite E2. clear S E2.
  rewrite fmap_app, rev_app_distr.
  rewrite <- (rev_involutive l2) in H2. rewrite <- fmap_rev. remember (rev l2) as r2 eqn:Er. clear Er. revert H2.
  induction r2 as [|x r2 IH]; intros H2; csimpl.
  - rewrite <- fmap_rev. destruct (rev l1) as [|x r1] eqn:Er; [done|]. csimpl.
    assert (x ∈ l1). { rewrite elem_of_list_In. apply in_rev. rewrite Er. left. done. }
    rewrite Forall_forall in H1. specialize (H1 x H). cbn [mk e_last]. destruct (n_last x.2 <? thr) eqn:El; [apply Z.ltb_lt in El; lia|done].
  - cbn [rev] in H2. apply Forall_app in H2 as [H2 Hx]. apply Forall_cons in Hx as [Hx _]. cbn [expire].
    cbn [mk e_last]. destruct (n_last x.2 <? thr) eqn:El; [|apply Z.ltb_ge in El; lia]. rewrite IH by done. done.
Qed.
Lemma stale_fresh t l : stale_cells t l ++ fresh_cells t l ≡ₚ l.
Proof.
  unfold stale_cells, fresh_cells. destruct (0 <=? idle); [|done]. rewrite <- Permutation_rev.
  induction l as [|x l IH]; [done|]. destruct (decide (n_last x.2 < t - idle)).
  - rewrite filter_cons_True by done. rewrite filter_cons_False by lia. cbn. by rewrite IH.
  - rewrite filter_cons_False by done. rewrite filter_cons_True by lia. rewrite <- Permutation_middle. by rewrite IH.
Qed.
Lemma fresh_sub t l : fresh_cells t l `sublist_of` l.
Proof. unfold fresh_cells. destruct (0 <=? idle); [apply sub_filter|done]. Qed.
Lemma dead_mk l : dead (mk <$> l) = mk <$> l.
Proof. apply dead_id. apply Forall_fmap. apply Forall_forall. done. Qed.
Lemma detached_mk l d : detached (mk <$> l) d = d.
Proof. induction l as [|x l IH]; [done|]. csimpl. cbn [detached]. unfold unlinked. cbn [mk e_pin]. exact IH. Qed.

Lemma view_expire l t : StronglySorted later l ->
  i_expire clk (view l t) = view (fresh_cells (clk t) l) (t + reads) /\ r_expire clk (view l t) = mk <$> stale_cells (clk t) l.
Proof.
  intros S. unfold i_expire, r_expire, fresh_cells, stale_cells, reads, threshold. cbn [view q_idle q_lst q_pin q_def q_tick].
  destruct (0 <=? idle) eqn:Ei.
  - rewrite (expire_sorted _ S). cbn [fst snd]. rewrite rev_involutive, dead_mk, detached_mk. split; [|done].
    unfold with_tick, with_lists, view. cbn. f_equal. lia.
  - split; [|done]. f_equal. lia.
Qed.

Lemma ar_sub c u l l' c' u' : ARep c u l -> l' `sublist_of` l -> Rep c' (view l' (l_tick c')) -> (l_tick c <= l_tick c')%nat ->
  map_to_list (p_vals u') ≡ₚ held <$> l' -> p_next u' = p_next u -> ARep c' u' l'.
Proof.
  intros H S R Ht Hv Hn. constructor.
  - done.
  - done.
  - rewrite Hn. apply Forall_forall. intros p Hp. pose proof (ar_next H) as F. rewrite Forall_forall in F. apply F. eapply elem_of_submseteq; [exact Hp|by apply sublist_submseteq].
  - eapply sorted_sub; [exact S|apply (ar_sorted H)].
  - apply Forall_forall. intros p Hp. pose proof (ar_past H) as F. rewrite Forall_forall in F.
    assert (Hpl : p ∈ l) by (eapply elem_of_submseteq; [exact Hp|by apply sublist_submseteq]). specialize (F p Hpl). cbn in F. pose proof (Hmono Ht). lia.
  - apply sublist_length in S. pose proof (ar_len H). lia.
  - apply H.
Qed.

Lemma nodup_perm gs l l' : gs ++ l' ≡ₚ l -> NoDup l.*1 -> NoDup (gs ++ l').*1.
Proof. intros P N. by rewrite P. Qed.

Lemma agg_expire c u l : ARep c u l ->
  exists c' u', RemoveExpiredEntries del clk (2 + l_next_id c) (c, u) = Ok (c', u') /\
    ARep c' u' (fresh_cells (clk (l_tick c)) l) /\ l_tick c' = (l_tick c + reads)%nat /\
    p_items u' = emit (stale_cells (clk (l_tick c)) l) (p_items u).
Proof.
  intros H. destruct (ar_fuel H) as [F1 F2]. destruct (view_expire (l_tick c) (ar_sorted H)) as [V1 V2].
  destruct (op_expire (delete_with gone) clk (ar_rep H) (ar_timed H) (fuel := 2 + l_next_id c)) as (c' & R & P).
  { cbn [view q_lst]. by rewrite fmap_length. }
  rewrite V1 in P. rewrite V2 in R. destruct (rep_fields P) as (Etk & _). cbn [view q_tick] in Etk.
  pose proof (stale_fresh (clk (l_tick c)) l) as SP.
  destruct (runs_free _ (fresh_cells (clk (l_tick c)) l) u R) as (u' & E1 & E2 & E3 & E4).
  { rewrite SP. apply H. }
  { eapply nodup_perm; [exact SP|apply (ar_addrs H)]. }
  exists c', u'. split; [done|]. split; [|done]. eapply ar_sub; [exact H|apply fresh_sub|by rewrite Etk|lia|done|done].
Qed.

(** *** lookup *)
Lemma view_cached l t : cached_elems (view l t) = mk <$> l.
Proof. unfold cached_elems. cbn [view q_lst q_pin]. by rewrite app_nil_r. Qed.

Lemma agg_miss c u l k : ARep c u l -> k ∉ n_key <$> (fresh_cells (clk (l_tick c)) l).*2 ->
  exists c' u', Lru.Lookup del clk (2 + l_next_id c) k (c, u) = Ok ((c', u'), None) /\
    ARep c' u' (fresh_cells (clk (l_tick c)) l) /\ l_tick c' = (l_tick c + reads)%nat /\
    p_items u' = emit (stale_cells (clk (l_tick c)) l) (p_items u).
Proof.
  intros H Hk. destruct (ar_fuel H) as [F1 F2]. destruct (view_expire (l_tick c) (ar_sorted H)) as [V1 V2].
  destruct (op_lookup_miss (delete_with gone) clk (k := k) (ar_rep H) (ar_timed H) (fuel := 2 + l_next_id c)) as (c' & R & P).
  { cbn [view q_lst]. by rewrite fmap_length. }
  { rewrite V1, view_cached, mk_keys. done. }
  rewrite V1 in P. rewrite V2 in R. destruct (rep_fields P) as (Etk & _). cbn [view q_tick] in Etk.
  pose proof (stale_fresh (clk (l_tick c)) l) as SP.
  destruct (runs_free _ (fresh_cells (clk (l_tick c)) l) u R) as (u' & E1 & E2 & E3 & E4).
  { rewrite SP. apply H. }
  { eapply nodup_perm; [exact SP|apply (ar_addrs H)]. }
  exists c', u'. split; [done|]. split; [|done]. eapply ar_sub; [exact H|apply fresh_sub|by rewrite Etk|lia|done|done].
Qed.

(** the list once the entry of [k] has been released with contents [v] at the [n]-th reading *)
Definition touch (k : string) (v : E) (n : nat) l : list cell :=
  if mode then
    ((fun p => (p.1, Ent k v (clk n))) <$> filter (fun p => n_key p.2 = k) l) ++ filter (fun p => n_key p.2 <> k) l
  else (fun p => if decide (n_key p.2 = k) then (p.1, Ent k v (n_last p.2)) else p) <$> l.
Definition touch_reads : nat := if mode then 1 else 0.

Lemma key_filter l p : NoDup (n_key <$> l.*2) -> p ∈ l -> filter (fun q => n_key q.2 = n_key p.2) l = [p].
Proof.
  induction l as [|x l IH]; intros N Hp; [by apply elem_of_nil in Hp|]. csimpl in N. apply NoDup_cons in N as [Nx N].
  apply elem_of_cons in Hp as [->|Hp].
  - rewrite filter_cons_True by done. f_equal. assert (length (filter (fun q => n_key q.2 = n_key x.2) l) = 0)%nat; [|by apply nil_length_inv].
    destruct (filter _ l) as [|y r] eqn:Ey; [done|]. exfalso. assert (y ∈ filter (fun q => n_key q.2 = n_key x.2) l) as Hy by (rewrite Ey; left).
    apply elem_of_list_filter in Hy as [Hk Hy]. apply Nx. rewrite <- Hk. apply elem_of_list_fmap. exists y.2. split; [done|]. by apply elem_of_list_fmap_1.
  - rewrite filter_cons_False; [by apply IH|]. intros E0. apply Nx. rewrite E0. apply elem_of_list_fmap. exists p.2. split; [done|]. by apply elem_of_list_fmap_1.
Qed.
Lemma filter_mk k l : filter (fun x => e_key x <> k) (mk <$> l) = mk <$> filter (fun p => n_key p.2 <> k) l.
Proof. induction l as [|x l IH]; [done|]. csimpl. rewrite !filter_cons. cbn [mk e_key]. destruct (decide (n_key x.2 <> k)); csimpl; by rewrite IH. Qed.
Lemma filter_mk_eq k l : filter (fun x => e_key x = k) (mk <$> l) = mk <$> filter (fun p => n_key p.2 = k) l.
Proof. induction l as [|x l IH]; [done|]. csimpl. rewrite !filter_cons. cbn [mk e_key]. destruct (decide (n_key x.2 = k)); csimpl; by rewrite IH. Qed.
Lemma sum_ones (l : list (elem nat)) : Forall (fun e => e_units e = 1) l -> sum_Z (e_units <$> l) = Z.of_nat (length l).
Proof. induction 1 as [|x l Hx _ IH]; [done|]. csimpl. rewrite sum_Z_cons, IH, Hx. lia. Qed.
Lemma filter_split_len k l : (length (filter (fun p => n_key p.2 = k) l) + length (filter (fun p => n_key p.2 <> k) l) = length l)%nat.
Proof. induction l as [|x l IH]; [done|]. rewrite !filter_cons. destruct (decide (n_key x.2 = k)), (decide (n_key x.2 <> k)); try done; cbn; lia. Qed.

Lemma cell_split l p : NoDup (n_key <$> l.*2) -> p ∈ l -> l ≡ₚ p :: filter (fun q => n_key q.2 <> n_key p.2) l.
Proof.
  intros N Hp. match goal with |- _ ≡ₚ p :: ?x => change (p :: x) with ([p] ++ x) end. rewrite <- (key_filter N Hp) at 1. clear.
  induction l as [|x l IH]; [done|]. rewrite !filter_cons. destruct (decide (n_key x.2 = n_key p.2)), (decide (n_key x.2 <> n_key p.2)); try done.
  - cbn. by rewrite <- IH.
  - rewrite <- Permutation_middle. by rewrite <- IH.
Qed.
(* the time of last use once the entry has been released *)
Definition used_at (n : nat) p : Z := if mode then clk n else n_last p.2.
Lemma touch_perm v n l p : NoDup (n_key <$> l.*2) -> p ∈ l ->
  touch (n_key p.2) v n l ≡ₚ (p.1, Ent (n_key p.2) v (used_at n p)) :: filter (fun q => n_key q.2 <> n_key p.2) l.
Proof.
  intros N Hp. unfold touch, used_at. destruct mode.
  - rewrite (key_filter N Hp). done.
  - rewrite (cell_split N Hp) at 1. csimpl. rewrite decide_True by done. f_equiv.
    rewrite <- (list_fmap_id (filter _ l)) at 2. match goal with |- ?a ≡ₚ ?b => assert (a = b) as ->; [|done] end. apply list_fmap_ext. intros i x Hx.
    apply elem_of_list_lookup_2, elem_of_list_filter in Hx as [Hx _]. rewrite decide_False; done.
Qed.
Lemma touch_in v n l p q : NoDup (n_key <$> l.*2) -> p ∈ l -> q ∈ touch (n_key p.2) v n l ->
  q = (p.1, Ent (n_key p.2) v (used_at n p)) \/ (q ∈ l /\ n_key q.2 <> n_key p.2).
Proof. intros N Hp Hq. rewrite touch_perm in Hq by done. apply elem_of_cons in Hq as [Hq|Hq]; [by left|]. apply elem_of_list_filter in Hq as [H1 H2]. by right. Qed.

Lemma vals_update (m : gmap nat E) l p v n : map_to_list m ≡ₚ held <$> l -> NoDup (n_key <$> l.*2) -> NoDup l.*1 -> p ∈ l ->
  map_to_list (<[p.1 := v]> m) ≡ₚ held <$> touch (n_key p.2) v n l.
Proof.
  intros Hv Nk Na Hp. rewrite (touch_perm v n Nk Hp). csimpl. rewrite <- insert_delete_insert, map_to_list_insert by apply lookup_delete.
  f_equiv. assert (Hg : m !! p.1 = Some (n_val p.2)).
  { apply elem_of_map_to_list. rewrite Hv. apply elem_of_list_fmap. by exists p. }
  rewrite <- (insert_id _ _ _ Hg) in Hv. rewrite <- insert_delete_insert, map_to_list_insert in Hv by apply lookup_delete.
  rewrite (cell_split Nk Hp) in Hv. csimpl in Hv. eapply Permutation_cons_inv, Hv.
Qed.

Lemma touch_view k v n l p t : NoDup (n_key <$> l.*2) -> p ∈ l -> k = n_key p.2 -> Z.of_nat (length l) <= mx ->
  let s := with_tick n (i_pin k (mk p) (view l t)) in
  pinned (mk p) ∈ cached_elems s /\ q_def s = [] /\
  i_release clk (pinned (mk p)) s = view (touch k v n l) (n + touch_reads) /\ r_release clk (pinned (mk p)) s = [].
Proof.
  intros N Hp -> Hlen s.
  assert (Hg : goes (pinned (mk p)) s = false).
  { assert (Hm : q_max s = mx). { unfold s, i_pin, with_tick. cbn [view q_lru]. by destruct mode. }
    assert (Hu : LruSim.total s <= Z.of_nat (length l));
      [|unfold goes; rewrite Hm; cbn [pinned mk set_pin e_pin]; change (0 + 1 =? 1) with true; cbn [andb]; apply Z.ltb_ge; lia].
    unfold LruSim.total. rewrite sum_ones.
    - unfold s, i_pin, all_elems, with_tick. cbn [view q_lru q_max q_lst q_pin q_def with_lists]. destruct mode; cbn [q_lst q_pin q_def with_lists].
      + rewrite filter_mk, app_length, fmap_length. cbn. pose proof (filter_split_len (n_key p.2) l) as X. rewrite (key_filter N Hp) in X. cbn in X. lia.
      + unfold at_key. rewrite !app_length, !fmap_length. cbn. lia.
    - apply Forall_forall. intros x. unfold s, i_pin, all_elems, with_tick. cbn [view q_lru q_max q_lst q_pin q_def with_lists].
      destruct mode; cbn [q_lst q_pin q_def with_lists]; rewrite !elem_of_app.
      + rewrite filter_mk. intros [H|[H|H]].
        * apply elem_of_list_fmap in H as (y & -> & _). done.
        * apply elem_of_cons in H as [->|H]; [done|]. by apply elem_of_nil in H.
        * by apply elem_of_nil in H.
      + intros [H|[H|H]]; [|by apply elem_of_nil in H..]. unfold at_key in H. apply elem_of_list_fmap in H as (y & -> & H).
        apply elem_of_list_fmap in H as (z & -> & H). destruct (decide _); done. }
  unfold i_release, r_release. rewrite Hg. unfold s, i_pin, i_unpin, with_tick, cached_elems, touch, touch_reads.
  clear Hg. subst s. unfold view. cbn [q_lru q_max q_idle q_lst q_pin q_def q_tick with_lists]. destruct mode; cbn [q_lru q_max q_idle q_lst q_pin q_def q_tick with_lists].
  - split; [apply elem_of_app; right; left|]. split; [done|]. split; [|done].
    rewrite (key_filter N Hp), filter_mk. cbn [pinned mk set_pin set_last e_pin e_key e_value e_units e_last].
    change (0 + 1 =? 1) with true. change (0 + 1 - 1) with 0. cbn [with_lists q_max q_idle q_lru q_tick].
    rewrite filter_cons_False by (intros X; by apply X). unfold with_lists. cbn [q_max q_idle q_lru q_lst q_pin q_def q_tick]. f_equal. lia.
  - split.
    { apply elem_of_app. left. unfold at_key. apply elem_of_list_fmap. exists (mk p). rewrite decide_True by done. split; [done|]. by apply elem_of_list_fmap_1. }
    split; [done|]. split; [|done]. unfold with_lists. cbn [q_max q_idle q_lru q_tick q_lst q_pin q_def]. f_equal; [|lia].
    unfold at_key. rewrite <- !list_fmap_compose. apply list_fmap_ext. intros i x _. cbn [compose mk e_key].
    destruct (decide (n_key x.2 = n_key p.2)) as [D|D].
    + cbn [pinned mk set_pin e_key]. rewrite decide_True by done. unfold unpinned, mk. cbn. by rewrite D.
    + cbn [mk e_key]. by rewrite decide_False.
Qed.

Lemma agg_hit c u l p : ARep c u l -> p ∈ fresh_cells (clk (l_tick c)) l ->
  exists c1 u1, Lru.Lookup del clk (2 + l_next_id c) (n_key p.2) (c, u) = Ok ((c1, u1), Some p.1) /\
    p_vals u1 !! p.1 = Some (n_val p.2) /\ l_tick c1 = (l_tick c + reads)%nat /\
    p_items u1 = emit (stale_cells (clk (l_tick c)) l) (p_items u) /\ p_next u1 = p_next u /\
    forall n v items, (l_tick c1 <= n)%nat -> exists c2, 
      Release del clk (n_key p.2) p.1 (set_tick n c1, Pool (<[p.1 := v]> (p_vals u1)) (p_next u1) items) = Ok (c2, Pool (<[p.1 := v]> (p_vals u1)) (p_next u1) items) /\
      ARep c2 (Pool (<[p.1 := v]> (p_vals u1)) (p_next u1) items) (touch (n_key p.2) v n (fresh_cells (clk (l_tick c)) l)) /\
      l_tick c2 = (n + touch_reads)%nat.
Proof.
  intros H Hp. destruct (ar_fuel H) as [F1 F2]. destruct (view_expire (l_tick c) (ar_sorted H)) as [V1 V2].
  set (l1 := fresh_cells (clk (l_tick c)) l) in *.
  destruct (op_lookup_hit (delete_with gone) clk (e := mk p) (ar_rep H) (ar_timed H) (fuel := 2 + l_next_id c)) as (c1 & R & P).
  { cbn [view q_lst]. by rewrite fmap_length. }
  { rewrite V1, view_cached. by apply elem_of_list_fmap_1. }
  cbn [mk e_key e_value] in R. fold (mk p) in P. change (e_key (mk p)) with (n_key p.2) in P.
  rewrite V1 in P. rewrite V2 in R. destruct (rep_fields P) as (Etk & _).
  assert (Etk' : l_tick c1 = (l_tick c + reads)%nat).
  { rewrite Etk. unfold i_pin. cbn [view q_lru]. by destruct mode. }
  pose proof (stale_fresh (clk (l_tick c)) l) as SP. fold l1 in SP.
  destruct (runs_free _ l1 u R) as (u1 & E1 & E2 & E3 & E4).
  { rewrite SP. apply H. }
  { eapply nodup_perm; [exact SP|apply (ar_addrs H)]. }
  assert (Nk : NoDup (n_key <$> l1.*2)).
  { pose proof (ar_keys H) as Nk. rewrite <- SP in Nk. rewrite !fmap_app in Nk. by apply NoDup_app in Nk as (_ & _ & ?). }
  assert (Na : NoDup l1.*1).
  { pose proof (ar_addrs H) as Na. rewrite <- SP in Na. rewrite !fmap_app in Na. by apply NoDup_app in Na as (_ & _ & ?). }
  assert (Hlen : Z.of_nat (length l1) <= mx).
  { pose proof (ar_len H) as X. rewrite <- SP, app_length in X. lia. }
  assert (Hsub : forall q, q ∈ l1 -> q ∈ l).
  { intros q Hq. rewrite <- SP. apply elem_of_app. by right. }
  exists c1, u1. split; [done|]. split.
  { apply elem_of_map_to_list. rewrite E2. apply elem_of_list_fmap. by exists p. }
  split; [done|]. split; [done|]. split; [done|]. intros n v items Hn.
  destruct (touch_view v n (l_tick c + reads)%nat Nk Hp eq_refl Hlen) as (T1 & T2 & T3 & T4).
  pose proof (rep_tick n P) as P2.
  destruct (op_release (delete_with gone) clk P2 (cached_all _ T1)) as (c2 & es & s2 & R2 & P3 & X); [done|].
  destruct X as [[X _]|(_ & -> & ->)]; [rewrite T2 in X; by apply elem_of_nil in X|].
  rewrite T3 in P3. rewrite T4 in R2. destruct (rep_fields P3) as (Etk2 & _). cbn [view q_tick] in Etk2.
  exists c2. split; [|split; [|done]].
  - specialize (R2 (Pool (<[p.1:=v]> (p_vals u1)) (p_next u1) items)). cbn [pinned mk set_pin e_key e_value] in R2. rewrite R2. done.
  - assert (Hc : clk (l_tick c) <= clk n) by (apply Hmono; lia).
    assert (Hc2 : clk n <= clk (n + touch_reads)) by (apply Hmono; lia).
    constructor.
    + by rewrite Etk2.
    + cbn [p_vals]. by apply vals_update.
    + cbn [p_next]. rewrite E3. apply Forall_forall. intros q Hq. pose proof (ar_next H) as F. rewrite Forall_forall in F.
      apply (touch_in v n Nk Hp) in Hq as [->|[Hq _]]; [cbn [fst]|]; apply F; auto.
    + unfold touch. pose proof (ar_sorted H) as S. eapply sorted_sub in S; [|apply (fresh_sub (clk (l_tick c)))]. fold l1 in S.
      pose proof (ar_past H) as F. rewrite Forall_forall in F.
      destruct mode.
      * rewrite (key_filter Nk Hp). csimpl. constructor; [by apply sorted_filter|].
        apply Forall_forall. intros q Hq. apply elem_of_list_filter in Hq as [_ Hq]. unfold later. cbn [snd n_last]. specialize (F q (Hsub q Hq)). cbn in F. lia.
      * clear -S. induction S as [|x l0 S IH F]; csimpl; constructor; [done|]. apply Forall_fmap. eapply Forall_impl; [exact F|].
        intros y Hy. unfold later, compose in *. destruct (decide (n_key y.2 = n_key p.2)), (decide (n_key x.2 = n_key p.2)); cbn; done.
    + rewrite Etk2. apply Forall_forall. intros q Hq. pose proof (ar_past H) as F. rewrite Forall_forall in F.
      apply (touch_in v n Nk Hp) in Hq as [->|[Hq _]].
      * cbn [snd n_last]. unfold used_at. specialize (F p (Hsub p Hp)). cbn in F. pose proof (Hpos n). destruct mode; lia.
      * specialize (F q (Hsub q Hq)). cbn in F. lia.
    + assert (length (touch (n_key p.2) v n l1) = length l1) as ->; [|done].
      rewrite (touch_perm v n Nk Hp). pose proof (filter_split_len (n_key p.2) l1) as X. rewrite (key_filter Nk Hp) in X. cbn in *. lia.
    + apply H.
Qed.

(** *** insertion *)
Definition room : nat := Z.to_nat (mx - 1).
Definition insert_last (t : nat) : Z := if mode then clk (S t) else clk t.
Definition insert_reads : nat := if mode then 2 else 1.

Lemma evict_ones tot (r r' : list (elem nat)) : Forall (fun e => e_units e = 1 /\ e_pin e = 0) r -> tot - mx <= Z.of_nat (length r) ->
  evict mx tot (r ++ r') = (drop (Z.to_nat (tot - mx)) r ++ r', take (Z.to_nat (tot - mx)) r).
Proof.
  intros F. revert tot. induction F as [|x r [Hx1 Hx2] F IH]; intros tot Hl.
  - cbn [length] in Hl. replace (Z.to_nat (tot - mx)) with O by lia. cbn [app drop take]. destruct r' as [|y r']; [done|]. cbn [evict].
    destruct (mx <? tot) eqn:El; [apply Z.ltb_lt in El; lia|done].
  - cbn [app evict]. destruct (mx <? tot) eqn:El.
    + apply Z.ltb_lt in El. rewrite Hx2, Hx1, Z.eqb_refl. cbn [length] in Hl. rewrite IH by lia. cbn [fst snd].
      replace (Z.to_nat (tot - mx)) with (S (Z.to_nat (tot - 1 - mx))) by lia. done.
    + apply Z.ltb_ge in El. replace (Z.to_nat (tot - mx)) with O by lia. done.
Qed.
Lemma mk_plain l : Forall (fun e => e_units e = 1 /\ e_pin e = 0) (mk <$> l).
Proof. apply Forall_fmap, Forall_forall. done. Qed.
Lemma evict_take l r' : Z.of_nat (length l) <= mx -> 1 <= mx ->
  evict mx (Z.of_nat (length l) + 1) (rev (mk <$> l) ++ r') = (rev (mk <$> take room l) ++ r', mk <$> rev (drop room l)).
Proof.
  intros Hl Hm. rewrite evict_ones.
  - rewrite skipn_rev, firstn_rev. rewrite fmap_length.
    replace (length l - Z.to_nat (Z.of_nat (length l) + 1 - mx))%nat with (min room (length l)) by (unfold room; lia).
    rewrite fmap_rev, fmap_take, fmap_drop.
    destruct (decide (length l <= room)%nat) as [H|H].
    + rewrite Nat.min_r by lia. rewrite !take_ge, !drop_ge by (rewrite ?fmap_length; lia). done.
    + rewrite Nat.min_l by lia. done.
  - rewrite <- fmap_rev. apply mk_plain.
  - rewrite rev_length, fmap_length. lia.
Qed.
Lemma no_key k l : k ∉ n_key <$> l.*2 -> filter (fun p => n_key p.2 = k) l = [] /\ filter (fun p => n_key p.2 <> k) l = l.
Proof.
  intros H. induction l as [|x l IH]; [done|]. csimpl in H. apply not_elem_of_cons in H as [H1 H2]. destruct (IH H2) as [I1 I2].
  rewrite filter_cons_False by (intros E0; by apply H1). rewrite filter_cons_True by (intros E0; by apply H1). by rewrite I1, I2.
Qed.

Lemma view_insert k a v l t : k ∉ n_key <$> l.*2 -> Z.of_nat (length l) <= mx -> 1 <= mx ->
  let s1 := i_evict (i_insert1 clk k a 1 (view l t)) in
  let e := new_elem k a 1 (clk t) in
  r_remove k (view l t) = [] /\ r_evict (i_insert1 clk k a 1 (view l t)) = mk <$> rev (drop room l) /\
  r_release clk e s1 = [] /\ i_release clk e s1 = view ((a, Ent k v (insert_last t)) :: take room l) (t + insert_reads).
Proof.
  intros Hk Hl Hm s1 e. destruct (no_key _ Hk) as [K1 K2].
  assert (R1 : r_remove k (view l t) = []). { unfold r_remove. rewrite view_cached, filter_mk_eq, K1. done. }
  assert (R2 : i_remove k (view l t) = view l t).
  { unfold i_remove. rewrite view_cached, filter_mk_eq, K1. cbn [view q_lst q_pin q_def fmap list_fmap detached]. rewrite filter_mk, K2. done. }
  split; [done|]. unfold s1, i_insert1. rewrite R2. fold e.
  assert (Ht : forall b : bool, sum_Z (e_units <$> (if b then (mk <$> l) ++ [e] ++ [] else (e :: (mk <$> l)) ++ [] ++ [])) = Z.of_nat (length l) + 1).
  { intros b. rewrite sum_ones.
    - destruct b; cbn [app]; rewrite ?app_nil_r, ?app_length; cbn [length]; rewrite ?fmap_length; lia.
    - apply Forall_forall. intros x Hx. assert (x = e \/ x ∈ mk <$> l) as [->|H2].
      { destruct b; cbn [app] in Hx; rewrite ?app_nil_r in Hx; revert Hx; [rewrite elem_of_app, elem_of_list_singleton|rewrite elem_of_cons]; tauto. }
      + done.
      + apply elem_of_list_fmap in H2 as (y & -> & _). done. }
  assert (Hlen : (S (length (take room l)) <= Z.to_nat mx)%nat) by (rewrite take_length; unfold room; lia).
  assert (Hsum : forall b : bool, sum_Z (e_units <$> (if b then (mk <$> take room l) ++ [e] ++ [] else (e :: (mk <$> take room l)) ++ [] ++ [])) <= mx).
  { intros b. rewrite sum_ones.
    - destruct b; cbn [app]; rewrite ?app_nil_r, ?app_length; cbn [length]; rewrite ?fmap_length; lia.
    - apply Forall_forall. intros x Hx. assert (x = e \/ x ∈ mk <$> take room l) as [->|H2].
      { destruct b; cbn [app] in Hx; rewrite ?app_nil_r in Hx; revert Hx; [rewrite elem_of_app, elem_of_list_singleton|rewrite elem_of_cons]; tauto. }
      + done.
      + apply elem_of_list_fmap in H2 as (y & -> & _). done. }
  pose proof (Ht mode) as Htot. pose proof (Hsum mode) as Hmax. clear Ht Hsum.
  unfold r_evict, i_evict, r_release, i_release, goes, i_add, LruSim.total, all_elems, with_tick, view, insert_last, insert_reads.
  cbn [q_lst q_pin q_def q_max q_lru q_tick q_idle with_lists]. 
  destruct mode; cbn [q_lst q_pin q_def q_max q_lru q_tick q_idle with_lists]; cbn [app] in Htot, Hmax |- *; rewrite ?app_nil_r in Htot, Hmax |- *; change (new_elem k a 1 (clk t)) with e; rewrite Htot.
  - pose proof (evict_take _ [] Hl Hm) as EV. rewrite !app_nil_r in EV. rewrite EV. cbn [fst snd]. split; [done|].
    rewrite rev_involutive. 
    assert (X : mx <? sum_Z (e_units <$> (mk <$> take room l) ++ [e]) = false) by (apply Z.ltb_ge; lia).
    rewrite X. rewrite andb_false_r. split; [done|].
    unfold i_unpin. cbn [q_lst q_pin q_def q_max q_lru q_tick q_idle with_lists with_tick]. change (e_pin e =? 1) with true. cbn [e_pin e_key].
    unfold with_tick, with_lists. cbn [q_lst q_pin q_def q_max q_lru q_tick q_idle]. f_equal; [| lia].
    rewrite filter_cons_False by (intros Y; by apply Y). done.
  - cbn [rev]. rewrite (evict_take _ [e] Hl Hm). cbn [fst snd]. split; [done|]. rewrite rev_app_distr, rev_involutive. cbn [rev app].
    assert (X : mx <? sum_Z (e_units <$> e :: (mk <$> take room l)) = false) by (apply Z.ltb_ge; lia).
    rewrite !app_nil_r, X. rewrite andb_false_r. split; [done|].
    unfold i_unpin. cbn [q_lst q_pin q_def q_max q_lru q_tick q_idle with_lists with_tick].
    unfold with_lists. cbn [q_lst q_pin q_def q_max q_lru q_tick q_idle]. f_equal; [|lia].
    unfold at_key. csimpl. rewrite decide_True by done. f_equal.
    rewrite <- (list_fmap_id (mk <$> take room l)) at 2. apply list_fmap_ext. intros i x Hx. rewrite decide_False; [done|]. intros E0.
    apply Hk. apply elem_of_list_lookup_2, elem_of_list_fmap in Hx as (y & -> & Hy). rewrite <- E0. cbn [mk e_key].
    apply elem_of_list_fmap. exists y.2. split; [done|]. apply elem_of_list_fmap_1. 
    rewrite <- (take_drop room l). apply elem_of_app. by left.
Qed.

Lemma take_sub {B} n (l : list B) : take n l `sublist_of` l.
Proof. rewrite <- (take_drop n l) at 2. by apply sublist_inserts_r. Qed.

Lemma agg_insert c u l k v : ARep c u l -> k ∉ n_key <$> l.*2 ->
  exists c' u', Lru.Insert del clk (2 + l_next_id c) k (p_next u) 1 (c, (alloc v u).2) = Ok (c', u') /\
    ARep c' u' ((p_next u, Ent k v (insert_last (l_tick c))) :: take room l) /\ l_tick c' = (l_tick c + insert_reads)%nat /\
    p_items u' = emit (rev (drop room l)) (p_items u) /\ p_next u' = S (p_next u).
Proof.
  intros H Hk. destruct (ar_fuel H) as [F1 F2]. set (a := p_next u).
  assert (Ha : a ∉ l.*1).
  { intros Hi. apply elem_of_list_fmap in Hi as (p & E0 & Hp). pose proof (ar_next H) as F. rewrite Forall_forall in F. specialize (F p Hp). cbn in F. unfold a in E0. lia. }
  destruct (view_insert a v _ (l_tick c) Hk (ar_len H) (ar_mx H)) as (V1 & V2 & V3 & V4).
  destruct (op_insert (delete_with gone) clk (s := view l (l_tick c)) k (v := a) (u := 1) (ar_rep H) (fuel := 2 + l_next_id c)) as (c' & R & P & _).
  { cbn [view q_lst]. by rewrite fmap_length. }
  { lia. }
  { unfold all_elems. cbn [view q_lst q_pin q_def]. by rewrite !app_nil_r, mk_values. }
  cbn [view q_tick] in R, P. fold (view l (l_tick c)) in R, P. rewrite V4 in P. rewrite V1, V2, V3, app_nil_r in R. cbn [app] in R.
  destruct (rep_fields P) as (Etk & _). cbn [view q_tick] in Etk.
  set (x := (a, Ent k v (insert_last (l_tick c))) : cell).
  assert (SP : rev (drop room l) ++ x :: take room l ≡ₚ x :: l).
  { rewrite <- Permutation_middle, <- Permutation_rev. rewrite Permutation_app_comm. by rewrite take_drop. }
  destruct (runs_free _ (x :: take room l) (alloc v u).2 R) as (u' & E1 & E2 & E3 & E4).
  { rewrite SP. cbn [alloc snd p_vals]. rewrite map_to_list_insert.
    - csimpl. rewrite (ar_vals H). done.
    - destruct (p_vals u !! p_next u) as [w|] eqn:Ew; [|done]. apply elem_of_map_to_list in Ew. rewrite (ar_vals H) in Ew.
      apply elem_of_list_fmap in Ew as (q & Eq & Hq). destruct Ha. apply elem_of_list_fmap. exists q. split; [|done]. unfold a. by inversion Eq. }
  { rewrite SP. csimpl. apply NoDup_cons. split; [done|]. apply (ar_addrs H). }
  exists c', u'. split; [done|]. split; [|by rewrite E3, E4].
  assert (Hc : clk (l_tick c) <= insert_last (l_tick c) <= clk (l_tick c + insert_reads)%nat).
  { unfold insert_last, insert_reads. destruct mode; split; try apply Hmono; lia. }
  pose proof (ar_past H) as FP. rewrite Forall_forall in FP. pose proof (ar_next H) as FN. rewrite Forall_forall in FN.
  assert (Hsub : forall q, q ∈ take room l -> q ∈ l). { intros q Hq. rewrite <- (take_drop room l). apply elem_of_app. by left. }
  constructor.
  - by rewrite Etk.
  - done.
  - rewrite E3. cbn [alloc snd p_next]. constructor; [unfold x, a; cbn [fst]; lia|]. apply Forall_forall. intros q Hq. specialize (FN q (Hsub q Hq)). cbn in FN. lia.
  - constructor; [eapply sorted_sub; [apply take_sub|apply (ar_sorted H)]|]. apply Forall_forall. intros q Hq. specialize (FP q (Hsub q Hq)). unfold later. cbn in *. lia.
  - rewrite Etk. constructor; [unfold x; cbn [snd n_last]; pose proof (Hpos (l_tick c)); lia|].
    apply Forall_forall. intros q Hq. specialize (FP q (Hsub q Hq)). cbn in FP. lia.
  - cbn [length]. rewrite take_length. pose proof (ar_mx H). unfold room. lia.
  - apply H.
Qed.

(** *** removal *)
Lemma agg_removeall c u l : ARep c u l ->
  exists c' u' gs, RemoveAll del ord (c, u) = Ok (c', u') /\ gs ≡ₚ l /\ ARep c' u' [] /\ l_tick c' = l_tick c /\
    p_items u' = emit gs (p_items u).
Proof.
  intros H. destruct (op_removeall (delete_with gone) ord (ar_rep H)) as (c' & es & Ees & R & P). rewrite view_cached in Ees.
  assert (exists gs, es = mk <$> gs /\ gs ≡ₚ l) as (gs & -> & Eg).
  { apply Permutation_map_inv in Ees as (gs & E1 & E2). exists gs. by split. }
  rewrite dead_mk in R. rewrite detached_mk in P. cbn [view q_def] in P. unfold with_lists in P. cbn [view q_max q_idle q_lru q_tick] in P.
  destruct (rep_fields P) as (Etk & _). cbn [q_tick] in Etk.
  destruct (runs_free _ [] u R) as (u' & E1 & E2 & E3 & E4).
  { rewrite app_nil_r, Eg. apply H. }
  { rewrite app_nil_r, Eg. apply (ar_addrs H). }
  exists c', u', gs. split; [done|]. split; [done|]. split; [|done].
  constructor; try constructor; try done.
  - unfold view. rewrite Etk. done.
  - cbn. pose proof (ar_mx H). lia.
  - apply H.
Qed.

Lemma agg_remove c u l k : ARep c u l ->
  exists c' u', Remove del k (c, u) = Ok (c', u') /\ ARep c' u' (filter (fun p => n_key p.2 <> k) l) /\ l_tick c' = l_tick c /\
    p_items u' = emit (filter (fun p => n_key p.2 = k) l) (p_items u).
Proof.
  intros H. destruct (op_remove (delete_with gone) k (ar_rep H)) as (c' & R & P).
  unfold r_remove in R. rewrite view_cached, filter_mk_eq, dead_mk in R.
  assert (V : i_remove k (view l (l_tick c)) = view (filter (fun p => n_key p.2 <> k) l) (l_tick c)).
  { unfold i_remove. rewrite view_cached, filter_mk_eq, detached_mk. cbn [view q_lst q_pin q_def]. rewrite filter_mk. done. }
  rewrite V in P. destruct (rep_fields P) as (Etk & _). cbn [view q_tick] in Etk.
  assert (SP : filter (fun p => n_key p.2 = k) l ++ filter (fun p => n_key p.2 <> k) l ≡ₚ l).
  { clear. induction l as [|x l IH]; [done|]. rewrite !filter_cons. destruct (decide (n_key x.2 = k)), (decide (n_key x.2 <> k)); try done.
    - cbn. by rewrite IH.
    - rewrite <- Permutation_middle. by rewrite IH. }
  destruct (runs_free _ (filter (fun p => n_key p.2 <> k) l) u R) as (u' & E1 & E2 & E3 & E4).
  { rewrite SP. apply H. }
  { eapply nodup_perm; [exact SP|apply (ar_addrs H)]. }
  exists c', u'. split; [done|]. split; [|done]. eapply ar_sub; [exact H|apply sub_filter|by rewrite Etk|lia|done|done].
Qed.

(** *** looking at the state *)
Lemma ar_tick c u l n : ARep c u l -> (l_tick c <= n)%nat -> ARep (set_tick n c) u l.
Proof.
  intros H Hn. pose proof (ar_past H) as F. rewrite Forall_forall in F. constructor; try apply H.
  - exact (rep_tick n (ar_rep H)).
  - apply Forall_forall. intros p Hp. specialize (F p Hp). cbn in F. pose proof (Hmono Hn). cbn [set_tick l_tick]. lia.
Qed.
Lemma ar_items c u l items : ARep c u l -> ARep c (with_items items u) l.
Proof. intros H. destruct H. constructor; done. Qed.
Lemma ar_cached c u l k : ARep c u l -> is_Some (l_table c !! k) <-> k ∈ n_key <$> l.*2.
Proof.
  intros H. destruct (ar_rep H) as (L & P & D & AC & T). rewrite <- mk_keys. rewrite <- (view_cached l (l_tick c)). unfold cached_elems.
  rewrite (ab_lst AC), (ab_pin AC). rewrite <- fmap_app. split.
  - intros [id Hid]. apply elem_of_map_to_list in Hid. rewrite T in Hid. unfold tab in Hid. apply elem_of_list_fmap in Hid as (p & Ep & Hp).
    inversion Ep. apply elem_of_list_fmap. exists p.2. split; [done|]. by apply elem_of_list_fmap_1.
  - intros Hk. apply elem_of_list_fmap in Hk as (e & -> & He). apply elem_of_list_fmap in He as (p & -> & Hp). exists p.1.
    apply elem_of_map_to_list. rewrite T. unfold tab. apply elem_of_list_fmap. by exists p.
Qed.
Lemma ar_destroy c u : ARep c u [] -> DestroyCache c = Ok tt.
Proof.
  intros H. destruct (ar_rep H) as (L & P & D & AC & T). pose proof (ab_lst AC) as E1. pose proof (ab_pin AC) as E2. pose proof (ab_def AC) as E3.
  cbn in E1, E2, E3. destruct L, P, D; try done. unfold DestroyCache.
  assert (l_table c = ∅) as ->. { apply map_to_list_empty_iff. apply Permutation_nil_r. exact T. }
  assert (l_defer c = ∅) as ->.
  { apply map_eq. intros k. rewrite lookup_empty. destruct (l_defer c !! k) as [d|] eqn:Ed; [|done]. pose proof (ab_defer AC k) as Q. rewrite Ed in Q. cbn in Q.
    apply Permutation_nil_r in Q. subst d. destruct (ab_nonnil AC _ Ed). }
  done.
Qed.

(** *** a new cache *)
Lemma agg_new (o : option Z) (n : nat) : timeout_of o = idle -> (forall i, o = Some i -> 0 <= i) -> 1 <= mx -> (1 <= n)%nat ->
  exists c u', SetTimeout del clk n o mode (NewCache mx, Pool ∅ 0 []) = Ok (c, u') /\ u' = Pool ∅ 0 [] /\ ARep c u' [] /\ l_tick c = reads.
Proof.
  intros Ho Hp Hm Hn. unfold SetTimeout, NewCache. cbn [l_idle set_lru set_idle fst snd].
  change (0 <=? -1) with false. cbn [andb].
  assert (Rp : forall t, ARep (Lru ∅ 0 ∅ ∅ [] 0 mx 0 idle mode t) (Pool ∅ 0 []) []).
  { intros t. constructor; try constructor; try done; cbn [l_tick p_vals p_next length].
    - unfold view. exists [], [], []. split; [constructor; cbn; try done; try (by constructor)|]; by rewrite ?map_to_list_empty.
    - lia. }
  destruct o as [i|]; cbn [timeout_of] in Ho.
  - subst i. specialize (Hp idle eq_refl). unfold DiscardIdle. destruct (idle <? 0) eqn:Ei; [apply Z.ltb_lt in Ei; lia|].
    unfold reads. assert (0 <=? idle = true) as -> by by apply Z.leb_le.
    destruct n as [|n]; [lia|]. cbn [idle_loop after_now set_tick set_idle set_lru fst snd l_list list_tail last l_tick].
    eexists _, _. split; [reflexivity|]. split; [done|]. split; [apply Rp|done].
  - assert (Hr : reads = 0%nat) by (unfold reads; by rewrite <- Ho). rewrite Hr, Ho.
    eexists _, _. split; [reflexivity|]. split; [done|]. split; [apply Rp|done].
Qed.
End agg.
