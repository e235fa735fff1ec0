(** The invariant of the report aggregator over histories. *)
From Verif Require Import Base Proto Signature OpAgg OpAggSpec OpAggProofs Lru LruSim LruOps LruOps2 LruSpec Timeout TimeoutSign Agg AggCache OpGroups ReportAgg ReportAggSpec ReportAggProofs.
From stdpp Require Import gmap list.
Local Open Scope Z_scope.
Set Implicit Arguments.

(** *** lists *)
Lemma perm_by_key {A} (f : A -> string) (xs ys : list A) : (forall k, filter (fun x => f x = k) xs ≡ₚ filter (fun x => f x = k) ys) -> xs ≡ₚ ys.
Proof.
  revert ys. induction xs as [|x xs IH]; intros ys H.
  - destruct ys as [|y ys]; [done|]. specialize (H (f y)). rewrite filter_nil, filter_cons_True in H by done. by apply Permutation_nil_cons in H.
  - assert (x ∈ ys) as Hx.
    { assert (x ∈ filter (fun z => f z = f x) ys) as Hx; [|by apply elem_of_list_filter in Hx as [_ ?]].
      rewrite <- (H (f x)). rewrite filter_cons_True by done. left. }
    apply elem_of_Permutation in Hx as [ys' Hy]. rewrite Hy. f_equiv. apply IH. intros k. specialize (H k). rewrite Hy in H. rewrite !filter_cons in H.
    destruct (decide (f x = k)); [by apply Permutation_cons_inv in H|done].
Qed.

Section groups.
Variable ord : hash_order.
Variable md5 : string -> string.
Variable kinds : option (gmap string metric_kind).
Notation cell := (nat * ent opagg)%type.
Notation top := (Z * operation)%type.
Notation sg := (rsig ord md5).
Notation mg := (merged ord md5 kinds).
Notation emits := (fun p : cell => ToOperationProto ord (n_val p.2)).
Implicit Types (l gs : list cell) (p : cell) (G : nat -> list top) (fg : list (string * list top)) (T : list top) (o : operation) (fl : list operation).

Definition capped (g : list operation) : Prop := (length g <= 2)%nat \/ (logs_in (removelast g) < 100)%nat.
Definition settled (g : list operation) : Prop := (length g <= 1)%nat \/ (logs_in g < 100)%nat.

Lemma logs_app a b : logs_in (a ++ b) = (logs_in a + logs_in b)%nat.
Proof. unfold logs_in. by rewrite fmap_app, sum_list_with_app. Qed.
Lemma settled_capped g : settled g -> capped g.
Proof.
  intros [H|H]; [left; lia|]. destruct g as [|x g _] using rev_ind; [left; cbn; lia|]. right. rewrite removelast_last. rewrite logs_app in H. lia.
Qed.
Lemma settled_merge g o : settled g -> capped (g ++ [o]).
Proof. intros [H|H]; [left; rewrite app_length; cbn; lia|right; by rewrite removelast_last]. Qed.

Record cell_ok G p : Prop := {
  co_built : built ord md5 kinds (Some (n_val p.2)) (G p.1).*2;
  co_sigs : Forall (fun x => sg x.2 = n_key p.2 /\ n_last p.2 <= x.1) (G p.1);
  co_first : exists x r, G p.1 = x :: r /\ x.1 = n_last p.2;
  co_settled : settled (G p.1).*2 }.
Definition group_ok (g : string * list top) : Prop := Forall (fun x => sg x.2 = g.1) g.2 /\ capped g.2.*2.

Record RAcc G fg l T fl : Prop := {
  ra_fl : Forall2 (fun g o => mg g.2.*2 o) fg fl;
  ra_fg : Forall group_ok fg;
  ra_cells : Forall (cell_ok G) l;
  ra_split : forall k, concat (filter (fun g => g.1 = k) fg).*2 ++ concat (G <$> (filter (fun p => n_key p.2 = k) l).*1) = filter (fun x => sg x.2 = k) T }.

Lemma built_logs a g : built ord md5 kinds (Some a) g -> length (op_logs (oa_operation a)) = logs_in g.
Proof.
  destruct g as [|f r]; [done|]. intros (a' & [= <-] & H). change (op_logs (oa_operation a)) with (op_logs (ToOperationProto ord a)).
  rewrite (logs_concat ord md5 kinds f r (ToOperationProto ord a)).
  - generalize (f :: r) as g. unfold logs_in. induction g as [|x g IH]; [done|]. csimpl. rewrite app_length, IH. done.
  - unfold aggregate, start in *. destruct (NewOperationAggregator ord md5 kinds f); try done. cbn [obind] in *. by rewrite H.
Qed.
Lemma built_merged a g : built ord md5 kinds (Some a) g -> mg g (ToOperationProto ord a).
Proof.
  destruct g as [|f r]; [done|]. intros (a' & [= <-] & H). exists f, r. split; [done|].
  unfold aggregate, start in *. destruct (NewOperationAggregator ord md5 kinds f); try done. cbn [obind] in *. by rewrite H.
Qed.

Lemma perm_key l l' k : NoDup (n_key <$> l.*2) -> l ≡ₚ l' -> filter (fun p => n_key p.2 = k) l = filter (fun p => n_key p.2 = k) l'.
Proof.
  intros N P. assert (N' : NoDup (n_key <$> l'.*2)) by by rewrite <- P.
  destruct (filter (fun p => n_key p.2 = k) l) as [|p r] eqn:E.
  - symmetry. apply Permutation_nil_r. by rewrite <- E, P.
  - assert (Hp : p ∈ filter (fun p => n_key p.2 = k) l) by (rewrite E; left). apply elem_of_list_filter in Hp as [<- Hp].
    rewrite <- E, (key_filter N Hp). rewrite P in Hp. by rewrite (key_filter N' Hp).
Qed.

Definition take_groups G gs : list (string * list top) := (fun p => (n_key p.2, G p.1)) <$> gs.
Lemma take_groups_filter G gs k : (filter (fun g => g.1 = k) (take_groups G gs)).*2 = G <$> (filter (fun p => n_key p.2 = k) gs).*1.
Proof. induction gs as [|p gs IH]; [done|]. unfold take_groups. csimpl. rewrite !filter_cons. cbn [fst]. destruct (decide (n_key p.2 = k)); csimpl; [f_equal|]; exact IH. Qed.

Lemma racc_remove G fg l T fl gs l1 : RAcc G fg l T fl -> NoDup (n_key <$> l.*2) -> l ≡ₚ gs ++ l1 ->
  RAcc G (fg ++ take_groups G gs) l1 T (fl ++ (emits <$> gs)).
Proof.
  intros [H1 H2 H3 H4] N P. rewrite P in H3. apply Forall_app in H3 as [H3a H3b]. split; [| |done|].
  - apply Forall2_app; [done|]. clear -H3a. induction H3a as [|p gs H _ IH]; [constructor|]. csimpl. constructor; [|done]. cbn [fst snd]. apply built_merged, H.
  - apply Forall_app. split; [done|]. apply Forall_fmap. eapply Forall_impl; [exact H3a|]. intros p [A1 A2 A3 A4]. split; cbn [fst snd].
    + eapply Forall_impl; [exact A2|]. by intros x [? _].
    + by apply settled_capped.
  - intros k. rewrite <- (H4 k). rewrite filter_app, fmap_app, concat_app, take_groups_filter, <- app_assoc. f_equal.
    rewrite (perm_key k N P). by rewrite filter_app, !fmap_app, concat_app.
Qed.

Definition upd G (a : nat) (g : list top) : nat -> list top := fun b => if decide (b = a) then g else G b.
Lemma upd_same G a g : upd G a g a = g.
Proof. unfold upd. by rewrite decide_True. Qed.
Lemma upd_other G a g b : b <> a -> upd G a g b = G b.
Proof. intros H. unfold upd. by rewrite decide_False. Qed.
Lemma upd_cell G a g p : p.1 <> a -> cell_ok G p -> cell_ok (upd G a g) p.
Proof. intros H [A1 A2 A3 A4]. split; by rewrite upd_other. Qed.
Lemma upd_concat G a g l k : (forall p, p ∈ l -> p.1 <> a) ->
  concat (upd G a g <$> (filter (fun p => n_key p.2 = k) l).*1) = concat (G <$> (filter (fun p => n_key p.2 = k) l).*1).
Proof.
  intros Q. f_equal. rewrite <- !list_fmap_compose. apply list_fmap_ext. intros i p Hp. cbn. apply upd_other. apply Q.
  apply elem_of_list_lookup_2, elem_of_list_filter in Hp. by destruct Hp.
Qed.
Lemma filter_snoc_T T (t : Z) o k : filter (fun x => sg x.2 = k) (T ++ [(t, o)]) = filter (fun x => sg x.2 = k) T ++ (if decide (sg o = k) then [(t, o)] else []).
Proof. rewrite filter_app, filter_cons, filter_nil. cbn [snd]. done. Qed.

(** a new entry *)
Lemma racc_new G fg l T fl a o v t : RAcc G fg l T fl -> a ∉ l.*1 -> sg o ∉ n_key <$> l.*2 -> NewOperationAggregator ord md5 kinds o = Ok v ->
  RAcc (upd G a [(t, o)]) fg ((a, Ent (sg o) v t) :: l) (T ++ [(t, o)]) fl.
Proof.
  intros [H1 H2 H3 H4] Ha Hk Hv.
  assert (Q : forall p, p ∈ l -> p.1 <> a). { intros p Hp <-. apply Ha. by apply elem_of_list_fmap_1. }
  split; [done|done| |].
  - constructor.
    + split; cbn [fst snd n_val n_key n_last]; rewrite upd_same.
      * pose proof (built_absorb ord md5 kinds None [] o eq_refl) as X. cbn [absorb1] in X. rewrite Hv in X. exact X.
      * constructor; [|constructor]. split; [done|]. cbn. lia.
      * by eexists _, _.
      * left. done.
    + rewrite Forall_forall in H3. apply Forall_forall. intros p Hp. apply upd_cell; auto.
  - intros k. rewrite filter_snoc_T, <- (H4 k). rewrite filter_cons. cbn [snd n_key]. destruct (decide (sg o = k)) as [E|E]; csimpl.
    + rewrite upd_same, upd_concat by done. assert (filter (fun p => n_key p.2 = k) l = []) as ->.
      { rewrite <- E. by apply no_key. } cbn. by rewrite app_nil_r.
    + rewrite upd_concat by done. by rewrite app_nil_r.
Qed.

Lemma merge_built v g o v' : built ord md5 kinds (Some v) g -> MergeOperation ord md5 kinds o v = Ok v' -> built ord md5 kinds (Some v') (g ++ [o]).
Proof. intros H E. pose proof (built_absorb ord md5 kinds (Some v) g o H) as X. cbn [absorb1] in X. by rewrite E in X. Qed.

(** an operation is merged into an entry that stays *)
Lemma racc_merge clk G fg l T fl p o v t n : RAcc G fg l T fl -> NoDup (n_key <$> l.*2) -> NoDup l.*1 -> p ∈ l -> n_key p.2 = sg o ->
  MergeOperation ord md5 kinds o (n_val p.2) = Ok v -> TooBig v = false -> n_last p.2 <= t ->
  RAcc (upd G p.1 (G p.1 ++ [(t, o)])) fg (touch clk false (sg o) v n l) (T ++ [(t, o)]) fl.
Proof.
  intros [H1 H2 H3 H4] N Na Hp Ek Hv Hb Ht. pose proof H3 as H3'. rewrite Forall_forall in H3. destruct (H3 p Hp) as [A1 A2 A3 A4].
  assert (B : built ord md5 kinds (Some v) ((G p.1).*2 ++ [o])) by (eapply merge_built; [exact A1|exact Hv]).
  assert (Q : forall q, q ∈ l -> n_key q.2 <> n_key p.2 -> q.1 <> p.1).
  { intros q Hq Hne E. apply Hne. f_equal. assert (q = p) as ->; [|done]. clear -Na Hp Hq E. induction l as [|x l IH]; [by apply elem_of_nil in Hp|].
    csimpl in Na. apply NoDup_cons in Na as [Nx Na]. apply elem_of_cons in Hp as [->|Hp]; apply elem_of_cons in Hq as [->|Hq]; auto.
    - destruct Nx. rewrite <- E. by apply elem_of_list_fmap_1.
    - destruct Nx. rewrite E. by apply elem_of_list_fmap_1. }
  rewrite <- Ek. split; [done|done| |].
  - apply Forall_forall. intros q Hq. apply (touch_in clk false v n N Hp) in Hq as [->|[Hq Hne]].
    + split; cbn [fst snd n_val n_key n_last]; rewrite upd_same.
      * rewrite fmap_app. exact B.
      * apply Forall_app. split; [exact A2|]. constructor; [|constructor]. cbn. done.
      * destruct A3 as (x & r & -> & E). by eexists x, _.
      * right. rewrite fmap_app. cbn [fmap list_fmap snd]. rewrite <- (built_logs _ _ B). unfold TooBig, kMaxLogEntries in Hb. apply Nat.leb_gt in Hb. lia.
    + apply upd_cell; auto.
  - intros k. rewrite filter_snoc_T, <- (H4 k). rewrite <- app_assoc. f_equal.
    assert (Nt : NoDup (n_key <$> (touch clk false (n_key p.2) v n l).*2)).
    { rewrite (touch_perm clk false v n N Hp). csimpl. rewrite (cell_split N Hp) in N. csimpl in N. exact N. }
    rewrite (perm_key k Nt (touch_perm clk false v n N Hp)). rewrite (perm_key k N (cell_split N Hp)). rewrite !filter_cons. cbn [snd n_key].
    rewrite <- Ek. destruct (decide (n_key p.2 = k)) as [E|E]; csimpl.
    + rewrite upd_same. rewrite upd_concat by (intros q Hq; apply elem_of_list_filter in Hq as [? ?]; auto).
      assert (filter (fun q : cell => n_key q.2 = k) (filter (fun q => n_key q.2 <> n_key p.2) l) = []) as ->; [|cbn; by rewrite !app_nil_r].
      apply Permutation_nil_r. rewrite E. clear. induction l as [|x l IH]; [done|]. rewrite filter_cons. destruct (decide (n_key x.2 <> k)); [|done]. rewrite filter_cons_False; done.
    + rewrite upd_concat by (intros q Hq; apply elem_of_list_filter in Hq as [? ?]; auto). by rewrite app_nil_r.
Qed.

(** an operation is merged into an entry that then is too big *)
Lemma racc_merge_big G fg l T fl p o v t : RAcc G fg l T fl -> NoDup (n_key <$> l.*2) -> p ∈ l -> n_key p.2 = sg o ->
  MergeOperation ord md5 kinds o (n_val p.2) = Ok v ->
  RAcc G (fg ++ [(sg o, G p.1 ++ [(t, o)])]) (filter (fun q => n_key q.2 <> sg o) l) (T ++ [(t, o)]) (fl ++ [ToOperationProto ord v]) /\
  logs_in (G p.1 ++ [(t, o)]).*2 = length (op_logs (oa_operation v)).
Proof.
  intros [H1 H2 H3 H4] N Hp Ek Hv. pose proof H3 as H3'. rewrite Forall_forall in H3. destruct (H3 p Hp) as [A1 A2 A3 A4].
  assert (B : built ord md5 kinds (Some v) ((G p.1).*2 ++ [o])) by (eapply merge_built; [exact A1|exact Hv]). split; [split|].
  - apply Forall2_app; [done|]. constructor; [|done]. cbn [snd]. rewrite fmap_app. apply built_merged, B.
  - apply Forall_app. split; [done|]. constructor; [|done]. split; cbn [fst snd].
    + apply Forall_app. split; [|by constructor]. eapply Forall_impl; [exact A2|]. intros x [? _]. congruence.
    + rewrite fmap_app. by apply settled_merge.
  - apply Forall_forall. intros q Hq. apply elem_of_list_filter in Hq as [_ Hq]. auto.
  - intros k. rewrite filter_snoc_T, <- (H4 k). rewrite filter_app, fmap_app, concat_app. rewrite filter_cons, filter_nil. cbn [fst].
    rewrite (perm_key k N (cell_split N Hp)). rewrite filter_cons. rewrite <- Ek. destruct (decide (n_key p.2 = k)) as [E|E]; csimpl.
    + assert (filter (fun q : cell => n_key q.2 = k) (filter (fun q => n_key q.2 <> n_key p.2) l) = []) as ->.
      { apply Permutation_nil_r. rewrite E. clear. induction l as [|x l IH]; [done|]. rewrite filter_cons. destruct (decide (n_key x.2 <> k)); [|done]. rewrite filter_cons_False; done. }
      cbn. rewrite !app_nil_r. by rewrite app_assoc.
    + cbn. by rewrite !app_nil_r.
  - rewrite fmap_app. cbn [fmap list_fmap snd]. symmetry. apply built_logs, B.
Qed.

(** *** reading the books *)
Lemma homog (g : list top) k k' : Forall (fun x => sg x.2 = k) g -> filter (fun x => sg x.2 = k') g = if decide (k = k') then g else [].
Proof.
  induction 1 as [|x g Hx _ IH]; [by destruct (decide _)|]. rewrite filter_cons, IH. destruct (decide (k = k')) as [<-|Hn].
  - by rewrite decide_True.
  - rewrite decide_False; [done|congruence].
Qed.
Lemma all_there G fg l T fl : RAcc G fg l T fl -> T ≡ₚ concat fg.*2 ++ concat (G <$> l.*1).
Proof.
  intros [H1 H2 H3 H4]. symmetry. apply (perm_by_key (fun x => sg x.2)). intros k. rewrite <- (H4 k), filter_app. f_equiv.
  - clear -H2. induction H2 as [|g fg [Hg _] _ IH]; [done|]. csimpl. rewrite filter_app, (homog k Hg), filter_cons. destruct (decide (g.1 = k)); csimpl; by rewrite IH.
  - clear -H3. induction H3 as [|p l [_ Hs _ _] _ IH]; [done|]. csimpl. rewrite filter_app.
    assert (Hg : Forall (fun x => sg x.2 = n_key p.2) (G p.1)) by (eapply Forall_impl; [exact Hs|]; by intros x [? _]).
    rewrite (homog k Hg), filter_cons. destruct (decide (n_key p.2 = k)); csimpl; by rewrite IH.
Qed.
Lemma keys_known G fg l T fl p : RAcc G fg l T fl -> p ∈ l -> exists x, x ∈ T /\ sg x.2 = n_key p.2.
Proof.
  intros R Hp. pose proof (ra_cells R) as H3. rewrite Forall_forall in H3. destruct (H3 p Hp) as [_ A2 (x & r & E & _) _]. rewrite E in A2. apply Forall_inv in A2 as [A2 _].
  exists x. split; [|done]. rewrite (all_there R). apply elem_of_app. right. apply elem_of_list_In, in_concat. exists (G p.1).
  rewrite <- !elem_of_list_In. split; [|rewrite E; left]. apply elem_of_list_fmap. exists p.1. split; [done|]. by apply elem_of_list_fmap_1.
Qed.
Lemma split_view G fg l T fl : RAcc G fg l T fl ->
  split_into ord md5 T.*2 ((fun g => g.2.*2) <$> fg ++ take_groups G l).
Proof.
  intros R. assert (R' := R). destruct R' as [H1 H2 H3 H4].
  assert (Fg : Forall (fun g => Forall (fun x => sg x.2 = g.1) g.2 /\ g.2 <> []) (fg ++ take_groups G l)).
  { apply Forall_app. split.
    - clear -H1 H2. induction H1 as [|g o fg fl (f & r & E & _) _ IH]; [constructor|]. apply Forall_cons in H2 as [[Hg _] H2]. constructor; [|auto]. split; [done|]. by intros E'; rewrite E' in E.
    - apply Forall_fmap. eapply Forall_impl; [exact H3|]. intros p [_ A2 (x & r & E & _) _]. cbn [fst snd]. split; [|by rewrite E]. eapply Forall_impl; [exact A2|]. by intros y [? _]. }
  split.
  - apply Forall_fmap. eapply Forall_impl; [exact Fg|]. intros g [Hg _]. exists g.1. apply Forall_fmap. exact Hg.
  - intros k. assert (E : with_sig ord md5 k T.*2 = (filter (fun x => sg x.2 = k) T).*2).
    { unfold with_sig. clear. induction T as [|x T IH]; [done|]. csimpl. rewrite !filter_cons. destruct (decide (sg x.2 = k)); csimpl; by rewrite IH. }
    rewrite E, <- (H4 k), <- take_groups_filter, <- concat_app, <- fmap_app, <- filter_app. clear E. revert Fg. generalize (fg ++ take_groups G l) as gs. clear.
    induction 1 as [|g gs [Hg Hn] _ IH]; [done|]. unfold group_sig in *. csimpl. rewrite !filter_cons.
    destruct (decide (g.1 = k)) as [E|E].
    + rewrite decide_True; [csimpl; by rewrite fmap_app, IH|]. destruct g.2 as [|x r]; [done|]. csimpl. left. apply Forall_inv in Hg. congruence.
    + rewrite decide_False; [done|]. intros X. apply Exists_exists in X as (o & Ho & Eo). apply elem_of_list_fmap in Ho as (x & -> & Hx). rewrite Forall_forall in Hg. specialize (Hg x Hx). congruence.
Qed.
End groups.
