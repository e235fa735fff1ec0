(** Which operations are in which aggregator: groups of operations that are merged and leave together
    (proof-internal vocabulary shared by the check and the report aggregator). *)
From Verif Require Import Base Proto Signature OpAgg OpAggSpec AggCache.
From stdpp Require Import gmap list.
Local Open Scope Z_scope.
Set Implicit Arguments.

(** [o] is what an aggregator emits that was given the operations of the group, in this order. *)
Definition merged (ord : hash_order) (md5 : string -> string) (kinds : option (gmap string metric_kind)) (g : list operation) (o : operation) : Prop :=
  exists first rest, g = first :: rest /\ aggregate ord md5 kinds first rest = Ok o.

Section groups.
Context {E : Type}.
Variable ord : hash_order.
Variable md5 : string -> string.
Variable kinds : option (gmap string metric_kind).
Variable agg : E -> option opagg.
Variable osig : operation -> string.
Notation cell := (nat * ent E)%type.
Implicit Types (l gs : list cell) (p : cell) (G : nat -> list operation).

Definition start (f : operation) (r : list operation) : outcome opagg :=
  let! a := NewOperationAggregator ord md5 kinds f in ofold (fun a o => MergeOperation ord md5 kinds o a) a r.
Definition built (oa : option opagg) (g : list operation) : Prop :=
  match g with [] => oa = None | f :: r => exists a, oa = Some a /\ start f r = Ok a end.
(** merging one more operation *)
Definition absorb1 (o : operation) (oa : option opagg) : outcome opagg :=
  match oa with None => NewOperationAggregator ord md5 kinds o | Some a => MergeOperation ord md5 kinds o a end.

Lemma ofold_snoc {S B} (f : S -> B -> outcome S) s xs x : ofold f s (xs ++ [x]) = (let! s1 := ofold f s xs in f s1 x).
Proof. revert s. induction xs as [|y xs IH]; intros s; cbn [app ofold obind]; [by destruct (f s x)|]. destruct (f s y); cbn [obind]; auto. Qed.
Lemma built_absorb oa g o : built oa g -> 
  match absorb1 o oa with Ok a => built (Some a) (g ++ [o]) | _ => exists first rest, g ++ [o] = first :: rest /\ forall x, aggregate ord md5 kinds first rest <> Ok x end.
Proof.
  destruct g as [|f r]; cbn [built absorb1 app].
  - intros ->. cbn [absorb1]. destruct (NewOperationAggregator ord md5 kinds o) as [a| | |] eqn:En.
    { exists a. split; [done|]. unfold start. by rewrite En. }
    all: exists o, []; split; [done|]; intros x Hx; unfold aggregate in Hx; by rewrite En in Hx.
  - intros (a & -> & Ha). cbn [absorb1]. assert (Q : start f (r ++ [o]) = MergeOperation ord md5 kinds o a).
    { unfold start in *. destruct (NewOperationAggregator ord md5 kinds f) as [a0| | |]; try done. cbn [obind] in *. rewrite ofold_snoc, Ha. done. }
    destruct (MergeOperation ord md5 kinds o a) as [a1| | |] eqn:Em.
    { by exists a1. }
    all: exists f, (r ++ [o]); split; [done|]; intros x Hx; unfold aggregate in Hx; unfold start in Q;
      destruct (NewOperationAggregator ord md5 kinds f) as [a0| | |]; try done; cbn [obind] in *; by rewrite Q in Hx.
Qed.

(** what deleting the cells emits *)
Definition out gs : list operation := omap (fun p => ToOperationProto ord <$> agg (n_val p.2)) gs.
Lemma out_app a b : out (a ++ b) = out a ++ out b.
Proof. unfold out. apply omap_app. Qed.
Definition nonnil (g : list operation) : bool := match g with [] => false | _ => true end.
Lemma concat_nonnil (gs : list (list operation)) : concat (filter (fun g => nonnil g) gs) = concat gs.
Proof. induction gs as [|g gs IH]; [done|]. rewrite filter_cons. destruct g; cbn [nonnil]; [by rewrite decide_False; [|intros []]|]. rewrite decide_True by done. cbn. by rewrite IH. Qed.

Definition cellok G (al : list operation) p : Prop :=
  built (agg (n_val p.2)) (G p.1) /\ Forall (fun o => osig o = n_key p.2) (G p.1) /\ G p.1 `sublist_of` al.
Definition groupok (al g : list operation) : Prop := (exists k, Forall (fun o => osig o = k) g) /\ g `sublist_of` al.

(** The operations [ab] are those in the flushed groups (whose merged operations are [fl]) and in the entries [l]. *)
Definition Acc l (fl ab al : list operation) : Prop :=
  exists G fg, Forall2 (merged ord md5 kinds) fg fl /\ Forall (cellok G al) l /\ concat fg ++ concat (G <$> l.*1) ≡ₚ ab /\ Forall (groupok al) fg.

Lemma out_groups G al gs : Forall (cellok G al) gs ->
  Forall2 (merged ord md5 kinds) (filter (fun g => nonnil g) (G <$> gs.*1)) (out gs) /\ Forall (groupok al) (filter (fun g => nonnil g) (G <$> gs.*1)).
Proof.
  induction 1 as [|p gs (H1 & H2 & H3) _ [IH1 IH2]]; [by split; constructor|]. csimpl. rewrite filter_cons. unfold out. csimpl. fold (out gs).
  destruct (G p.1) as [|f r] eqn:Eg; cbn [nonnil built] in *.
  - rewrite H1. cbn [fmap option_fmap option_map]. rewrite decide_False by (intros []). done.
  - rewrite decide_True by done. destruct H1 as (a & -> & Ha). cbn [fmap option_fmap option_map]. split.
    + constructor; [|done]. exists f, r. split; [done|]. unfold aggregate, start in *. destruct (NewOperationAggregator ord md5 kinds f); try done. cbn [obind] in *. by rewrite Ha.
    + constructor; [|done]. split; [by exists (n_key p.2)|done].
Qed.

Lemma acc_remove l gs l1 fl ab al : Acc l fl ab al -> l ≡ₚ gs ++ l1 -> Acc l1 (fl ++ out gs) ab al.
Proof.
  intros (G & fg & H1 & H2 & H3 & H4) P. rewrite P in H2, H3. apply Forall_app in H2 as [H2a H2b]. destruct (out_groups H2a) as [O1 O2].
  exists G, (fg ++ filter (fun g => nonnil g) (G <$> gs.*1)). split; [by apply Forall2_app|]. split; [done|]. split; [|by apply Forall_app].
  rewrite concat_app, concat_nonnil. rewrite <- H3. rewrite !fmap_app, concat_app. by rewrite app_assoc.
Qed.
Lemma acc_perm l l' fl ab ab' al : Acc l fl ab al -> l ≡ₚ l' -> ab ≡ₚ ab' -> Acc l' fl ab' al.
Proof.
  intros (G & fg & H1 & H2 & H3 & H4) P P2. exists G, fg. split; [done|]. split; [by rewrite <- P|]. split; [|done]. by rewrite <- P, <- P2.
Qed.
Lemma cellok_more G al al' p : al `sublist_of` al' -> cellok G al p -> cellok G al' p.
Proof. intros S (H1 & H2 & H3). split; [done|]. split; [done|]. by etrans. Qed.
Lemma acc_more l fl ab al al' : Acc l fl ab al -> al `sublist_of` al' -> Acc l fl ab al'.
Proof.
  intros (G & fg & H1 & H2 & H3 & H4) S. exists G, fg. split; [done|]. split; [|split; [done|]].
  - eapply Forall_impl; [exact H2|]. intros p. by apply cellok_more.
  - eapply Forall_impl; [exact H4|]. intros g [? ?]. split; [done|]. by etrans.
Qed.
Lemma acc_new l a k v t fl ab al : Acc l fl ab al -> a ∉ l.*1 -> agg v = None -> Acc ((a, Ent k v t) :: l) fl ab al.
Proof.
  intros (G & fg & H1 & H2 & H3 & H4) Ha Hv. exists (fun b => if decide (b = a) then [] else G b), fg. split; [done|].
  assert (Q : forall p, p ∈ l -> p.1 <> a). { intros p Hp <-. apply Ha. by apply elem_of_list_fmap_1. }
  split; [|split; [|done]].
  - constructor.
    + unfold cellok. cbn [fst snd n_val n_key]. rewrite decide_True by done. split; [done|]. split; [done|]. apply sublist_nil_l.
    + rewrite Forall_forall in H2. apply Forall_forall. intros p Hp. specialize (H2 p Hp). unfold cellok. rewrite decide_False by auto. exact H2.
  - csimpl. rewrite decide_True by done. cbn. rewrite <- H3. f_equiv. clear -Q. match goal with |- ?x ≡ₚ ?y => assert (x = y) as ->; [|done] end. f_equal.
    rewrite <- !list_fmap_compose. apply list_fmap_ext. intros i p Hp. cbn. rewrite decide_False; [done|]. apply Q. by eapply elem_of_list_lookup_2.
Qed.
(** an entry starts with one operation *)
Lemma acc_start l a k v t o oa fl ab al : Acc l fl ab al -> a ∉ l.*1 -> absorb1 o None = Ok oa -> agg v = Some oa -> osig o = k ->
  Acc ((a, Ent k v t) :: l) fl (ab ++ [o]) (al ++ [o]).
Proof.
  intros (G & fg & H1 & H2 & H3 & H4) Ha Ho Hv Hs. exists (fun b => if decide (b = a) then [o] else G b), fg. split; [done|].
  assert (Q : forall p, p ∈ l -> p.1 <> a). { intros p Hp <-. apply Ha. by apply elem_of_list_fmap_1. }
  split; [|split].
  - constructor.
    + unfold cellok. cbn [fst snd n_val n_key]. rewrite decide_True by done. split.
      { rewrite Hv. pose proof (built_absorb None [] o eq_refl) as X. by rewrite Ho in X. }
      split; [by constructor|]. by apply sublist_inserts_l.
    + rewrite Forall_forall in H2. apply Forall_forall. intros p Hp. specialize (H2 p Hp). unfold cellok. rewrite decide_False by auto.
      eapply cellok_more; [|exact H2]. by apply sublist_inserts_r.
  - csimpl. rewrite decide_True by done. rewrite <- H3. cbn [app]. rewrite <- (Permutation_cons_append _ o), <- Permutation_middle. f_equiv. f_equiv.
    match goal with |- ?x ≡ₚ ?y => assert (x = y) as ->; [|done] end. f_equal.
    rewrite <- !list_fmap_compose. apply list_fmap_ext. intros i p Hp. cbn. rewrite decide_False; [done|]. apply Q. by eapply elem_of_list_lookup_2.
  - eapply Forall_impl; [exact H4|]. intros g [? ?]. split; [done|]. etrans; [done|]. by apply sublist_inserts_r.
Qed.

(** an entry is rewritten, possibly with one more operation *)
Lemma acc_touch clk mode l p v n fl ab al : Acc l fl ab al -> p ∈ l -> NoDup (n_key <$> l.*2) -> agg v = agg (n_val p.2) ->
  Acc (touch clk mode (n_key p.2) v n l) fl ab al.
Proof.
  intros (G & fg & H1 & H2 & H3 & H4) Hp N Hv. exists G, fg. split; [done|]. split; [|split; [|done]].
  - rewrite Forall_forall in H2. apply Forall_forall. intros q Hq. apply (touch_in clk mode v n N Hp) in Hq as [->|[Hq _]]; [|auto].
    destruct (H2 p Hp) as (A1 & A2 & A3). split; [cbn [fst snd n_val]; by rewrite Hv|done].
  - rewrite <- H3. rewrite (touch_perm clk mode v n N Hp). f_equiv.
    assert (X : concat (G <$> l.*1) ≡ₚ concat (G <$> (p :: filter (fun q => n_key q.2 <> n_key p.2) l).*1)) by (by rewrite <- (cell_split N Hp)).
    rewrite X. done.
Qed.
Lemma acc_absorb clk mode l p v n o oa fl ab al : Acc l fl ab al -> p ∈ l -> NoDup (n_key <$> l.*2) -> NoDup l.*1 ->
  absorb1 o (agg (n_val p.2)) = Ok oa -> agg v = Some oa -> osig o = n_key p.2 ->
  Acc (touch clk mode (n_key p.2) v n l) fl (ab ++ [o]) (al ++ [o]).
Proof.
  intros (G & fg & H1 & H2 & H3 & H4) Hp N Na Ho Hv Hs. exists (fun b => if decide (b = p.1) then G b ++ [o] else G b), fg. split; [done|].
  rewrite Forall_forall in H2.
  assert (Q : forall q, q ∈ filter (fun q => n_key q.2 <> n_key p.2) l -> q.1 <> p.1).
  { intros q Hq Eq. assert (Na' : NoDup (p :: filter (fun q => n_key q.2 <> n_key p.2) l).*1) by (by rewrite <- (cell_split N Hp)).
    csimpl in Na'. apply NoDup_cons in Na' as [Na' _]. apply Na'. rewrite <- Eq. by apply elem_of_list_fmap_1. }
  split; [|split].
  - apply Forall_forall. intros q Hq. rewrite (touch_perm clk mode v n N Hp) in Hq. apply elem_of_cons in Hq as [->|Hq].
    + destruct (H2 p Hp) as (A1 & A2 & A3). unfold cellok. cbn [fst snd n_val n_key]. rewrite decide_True by done. split; [|split].
      * rewrite Hv. pose proof (built_absorb _ _ o A1) as X. by rewrite Ho in X.
      * apply Forall_app. by split; [|constructor].
      * apply sublist_app; [done|]. done.
    + pose proof (Q _ Hq) as Hne. apply elem_of_list_filter in Hq as [_ Hq]. unfold cellok. rewrite decide_False by done.
      eapply cellok_more; [|exact (H2 q Hq)]. by apply sublist_inserts_r.
  - rewrite <- H3. rewrite (touch_perm clk mode v n N Hp).
    assert (Y : concat (G <$> l.*1) ≡ₚ concat (G <$> (p :: filter (fun q => n_key q.2 <> n_key p.2) l).*1)) by (by rewrite <- (cell_split N Hp)).
    rewrite Y. clear Y. csimpl. rewrite decide_True by done.
    assert (X : (fun b => if decide (b = p.1) then G b ++ [o] else G b) <$> (filter (fun q => n_key q.2 <> n_key p.2) l).*1 = G <$> (filter (fun q => n_key q.2 <> n_key p.2) l).*1).
    { rewrite <- !list_fmap_compose. apply list_fmap_ext. intros i q Hq. cbn. rewrite decide_False; [done|]. apply Q. by eapply elem_of_list_lookup_2. }
    rewrite X. rewrite <- !app_assoc. f_equiv. f_equiv. apply Permutation_app_comm.
  - eapply Forall_impl; [exact H4|]. intros g [? ?]. split; [done|]. etrans; [done|]. by apply sublist_inserts_r.
Qed.
End groups.
