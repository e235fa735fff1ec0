(** What happens to each entry when the quota cache expires entries or makes room. *)
From Verif Require Import Base Proto Signature OpAgg Lru LruSpec LruSim Timeout Agg QuotaAgg QuotaFuel QuotaSim QuotaStep QuotaStep2.
From stdpp Require Import gmap list.
Local Open Scope Z_scope.
Set Implicit Arguments.

(** Not touched; dropped or not at reading [i], inserted again at reading [j], refreshed at reading [k]. *)
Inductive fate := Stay | Back (i j : nat) | Sent (i j k : nat) | Gone (i : nat).

Section trace.
Variable ord : hash_order.
Variable clk : nat -> Z.
Variable cf : quota_config.
Variables mx idle : Z.
Hypothesis Hmono : forall i j, (i <= j)%nat -> clk i <= clk j.
Notation doomed := (doomed clk cf).
Implicit Types (l : list cell) (x : cell) (T : list (cell * fate)) (p : cell * fate).

Definition after p : option cell :=
  match p.2 with
  | Stay => Some p.1
  | Back _ j => Some (Cell (c_addr p.1) (clk j) (c_elem p.1))
  | Sent _ j k => Some (Cell (c_addr p.1) (clk j) (refreshed (clk k) (c_elem p.1)))
  | Gone _ => None
  end.
Definition sent p : option quota_request :=
  match p.2 with Sent _ _ _ => Some (ReturnAllocateQuotaRequest ord cf (c_elem p.1)) | _ => None end.
Definition fate_ok (fl : bool) (lo hi : nat) p : Prop :=
  match p.2 with
  | Stay => True
  | Back i j => doomed fl i (c_elem p.1) = false /\ pending (c_elem p.1) = false /\ (lo <= i < j)%nat /\ (j < hi)%nat
  | Sent i j k => doomed fl i (c_elem p.1) = false /\ pending (c_elem p.1) = true /\ (lo <= i < j)%nat /\ (j < k)%nat /\ (k < hi)%nat
  | Gone i => doomed fl i (c_elem p.1) = true /\ (lo <= i)%nat /\ (fl = false -> i < hi)%nat
  end.
Lemma fate_weaken fl lo hi lo' hi' p : (lo' <= lo)%nat -> (hi <= hi')%nat -> fate_ok fl lo hi p -> fate_ok fl lo' hi' p.
Proof.
  unfold fate_ok. destruct p.2; intros; [done|intuition lia|intuition lia|].
  destruct H1 as (? & ? & H1). split_and!; [done|lia|]. intros E. specialize (H1 E). lia.
Qed.
Lemma fates_weaken fl lo hi lo' hi' T : (lo' <= lo)%nat -> (hi <= hi')%nat -> Forall (fate_ok fl lo hi) T -> Forall (fate_ok fl lo' hi') T.
Proof. intros H1 H2 H. eapply Forall_impl; [exact H|]. intros p. by apply fate_weaken. Qed.
Lemma doomed_mono fl i j e : (i <= j)%nat -> doomed fl i e = true -> doomed fl j e = true.
Proof. unfold doomed. destruct fl; [done|]. intros H. pose proof (Hmono H). rewrite !Z.leb_le. lia. Qed.
Lemma doomed_flag i j e : doomed true i e = doomed true j e. Proof. done. Qed.

Lemma after_reinsert_eq tk it e : after_reinsert ord clk cf tk it e =
  if pending e then (refreshed (clk tk) e, S tk, it ++ [ReturnAllocateQuotaRequest ord cf e]) else (e, tk, it).
Proof. done. Qed.

Definition newest lo hi x : Prop := exists j, (lo <= j < hi)%nat /\ c_time x = clk j.

Lemma purge_trace fl olds tk it : exists T,
  let r := purge ord clk cf fl olds tk it in
  T.*1 = olds /\ r.1.1 = rev (omap after T) /\ r.2 = it ++ omap sent T /\ (tk <= r.1.2)%nat /\ Forall (fate_ok fl tk r.1.2) T /\
  Forall (fun p => p.2 <> Stay) T /\ StronglySorted (fun x y => c_time y <= c_time x) r.1.1 /\ Forall (newest tk r.1.2) r.1.1.
Proof.
  revert tk it. induction olds as [|x olds IH]; intros tk it; cbn [purge].
  { exists []. cbn. rewrite app_nil_r. split_and!; try done; constructor. }
  destruct (doomed fl tk (c_elem x)) eqn:Ed.
  - destruct (IH (rd fl tk) it) as (T & H1 & H2 & H3 & H4 & H5 & H6 & H7 & H8). cbn zeta in *. set (r := purge _ _ _ _ _ _ _) in *.
    exists ((x, Gone tk) :: T). cbn [fmap list_fmap fst omap list_omap after sent snd].
    assert ((tk <= rd fl tk)%nat) as Hr by (destruct fl; cbn; lia).
    split_and!; try done.
    + by rewrite H1.
    + lia.
    + constructor; [|by apply (@fates_weaken _ (rd fl tk) r.1.2); [lia|lia|]]. unfold fate_ok. cbn. split_and!; [done|lia|]. intros ->. cbn in H4. lia.
    + by constructor.
    + eapply Forall_impl; [exact H8|]. intros y (j & Hj & ?). exists j. split; [lia|done].
  - cbn zeta. rewrite after_reinsert_eq. assert (fl = false) as -> by (by destruct fl). cbn [rd] in *.
    destruct (pending (c_elem x)) eqn:Ep; cbn [fst snd].
    + destruct (IH (S (S (S tk))) (it ++ [ReturnAllocateQuotaRequest ord cf (c_elem x)])) as (T & H1 & H2 & H3 & H4 & H5 & H6 & H7 & H8). cbn zeta in *. set (r := purge _ _ _ _ _ _ _) in *.
      exists ((x, Sent tk (S tk) (S (S tk))) :: T). cbn [fmap list_fmap fst omap list_omap after sent snd].
      split_and!.
      * by rewrite H1.
      * cbn [rev]. by rewrite H2.
      * rewrite H3, <- app_assoc. done.
      * lia.
      * constructor; [|by apply (@fates_weaken _ (S (S (S tk))) r.1.2); [lia|lia|]]. unfold fate_ok. cbn. split_and!; try done; lia.
      * by constructor.
      * apply sorted_snoc; [done|]. eapply Forall_impl; [exact H8|]. intros y (j & Hj & ->). cbn. apply Hmono. lia.
      * apply Forall_app. split; [|constructor; [|constructor]].
        -- eapply Forall_impl; [exact H8|]. intros y (j & Hj & ?). exists j. split; [lia|done].
        -- exists (S tk). cbn. split; [lia|done].
    + destruct (IH (S (S tk)) it) as (T & H1 & H2 & H3 & H4 & H5 & H6 & H7 & H8). cbn zeta in *. set (r := purge _ _ _ _ _ _ _) in *.
      exists ((x, Back tk (S tk)) :: T). cbn [fmap list_fmap fst omap list_omap after sent snd].
      split_and!.
      * by rewrite H1.
      * cbn [rev]. by rewrite H2.
      * done.
      * lia.
      * constructor; [|by apply (@fates_weaken _ (S (S tk)) r.1.2); [lia|lia|]]. unfold fate_ok. cbn. split_and!; try done; lia.
      * by constructor.
      * apply sorted_snoc; [done|]. eapply Forall_impl; [exact H8|]. intros y (j & Hj & ->). cbn. apply Hmono. lia.
      * apply Forall_app. split; [|constructor; [|constructor]].
        -- eapply Forall_impl; [exact H8|]. intros y (j & Hj & ?). exists j. split; [lia|done].
        -- exists (S tk). cbn. split; [lia|done].
Qed.

(** Entries [l], looked at between the readings [lo] and [hi], become the entries [l'] and the items [its]. *)
Definition passes (fl : bool) (lo hi : nat) l l' (its : list quota_request) T : Prop :=
  T.*1 ≡ₚ l /\ l' ≡ₚ omap after T /\ its = omap sent T /\ Forall (fate_ok fl lo hi) T /\ (lo <= hi)%nat.

Lemma sorted_app {A} (R : A -> A -> Prop) (a b : list A) : StronglySorted R a -> StronglySorted R b -> (forall (x y : A), x ∈ a -> y ∈ b -> R x y) -> StronglySorted R (a ++ b).
Proof.
  induction 1 as [|x a Ha IH Hx]; [done|]. intros Hb H. cbn. constructor.
  - apply IH; [done|]. intros. apply H; [by constructor|done].
  - apply Forall_app. split; [done|]. apply Forall_forall. intros y Hy. apply H; [constructor|done].
Qed.
Lemma omap_length {A B} (f : A -> option B) (xs : list A) : (length (omap f xs) <= length xs)%nat.
Proof. induction xs as [|x xs IH]; [done|]. cbn. destruct (f x); cbn; lia. Qed.
Lemma omap_perm {A B} (f : A -> option B) (xs ys : list A) : xs ≡ₚ ys -> omap f xs ≡ₚ omap f ys.
Proof. intros H. by rewrite H. Qed.
Lemma stays_after l : omap after ((fun x => (x, Stay)) <$> l) = l.
Proof. induction l as [|x l IH]; [done|]. cbn. by rewrite IH. Qed.
Lemma stays_sent l : omap sent ((fun x => (x, Stay)) <$> l) = [].
Proof. induction l as [|x l IH]; [done|]. cbn. done. Qed.
Lemma stays_ok fl lo hi l : Forall (fate_ok fl lo hi) ((fun x => (x, Stay)) <$> l).
Proof. apply Forall_fmap. apply Forall_forall. done. Qed.
Lemma stays_fst l : ((fun x => (x, Stay)) <$> l).*1 = l.
Proof. induction l as [|x l IH]; [done|]. cbn. by rewrite IH. Qed.

Lemma expire_trace fl l tk it : (forall i, 0 <= clk i) -> tidy clk l tk -> exists T,
  let r := expire ord clk cf idle fl l tk it in
  (exists its, r.2 = it ++ its /\ passes fl tk r.1.2 l r.1.1 its T) /\ tidy clk r.1.1 r.1.2 /\ (length r.1.1 <= length l)%nat /\
  Forall (fun p => match p.2 with Stay => idle < 0 \/ clk tk - idle <= c_time p.1 | _ => 0 <= idle /\ c_time p.1 < clk tk - idle end) T /\
  (0 <= idle -> Forall (fun p => match p.2 with Gone i | Back i _ | Sent i _ _ => (tk < i)%nat | Stay => True end) T).
Proof.
  intros Hpos [Hs Hb]. unfold expire. destruct (Z.ltb_spec idle 0) as [Hi|Hi].
  - exists ((fun x => (x, Stay)) <$> l). cbn. split_and!; try done; [| |lia].
    + exists []. rewrite app_nil_r. split; [done|]. unfold passes. rewrite stays_fst, stays_after, stays_sent. split_and!; try done. apply stays_ok.
    + apply Forall_fmap. apply Forall_forall. intros. cbn. by left.
  - set (olds := filter (fun x => c_time x < clk tk - idle) l). set (rest := filter (fun x => ~ c_time x < clk tk - idle) l).
    destruct (purge_trace fl (rev olds) (S tk) it) as (T & H1 & H2 & H3 & H4 & H5 & H6 & H7 & H8). cbn zeta in *. set (r := purge _ _ _ _ _ _ _) in *.
    assert (Forall (fun x => c_time x < clk tk - idle) olds) as Fo by (apply Forall_forall; intros ? [? _]%elem_of_list_filter; done).
    assert (Forall (fun x => ~ c_time x < clk tk - idle) rest) as Fr by (apply Forall_forall; intros ? [? _]%elem_of_list_filter; done).
    assert (olds ++ rest ≡ₚ l) as P.
    { clear. subst olds rest. induction l as [|x l IH]; [done|]. rewrite !filter_cons. destruct (decide (c_time x < clk tk - idle)) as [Hd|Hd].
      - destruct (decide (¬ c_time x < clk tk - idle)); [done|]. cbn. by rewrite IH.
      - destruct (decide (¬ c_time x < clk tk - idle)); [|done]. rewrite <- Permutation_middle. by rewrite IH. }
    exists (T ++ ((fun x => (x, Stay)) <$> rest)). cbn [fst snd]. split_and!.
    + exists (omap sent T). split; [done|]. unfold passes. rewrite fmap_app, stays_fst, !omap_app, stays_after, stays_sent, app_nil_r, H1. split_and!; try done.
      * rewrite <- (Permutation_rev olds). done.
      * rewrite H2. rewrite <- (Permutation_rev (omap after T)). done.
      * apply Forall_app. split; [|apply stays_ok]. eapply fates_weaken; [| |exact H5]; lia.
      * lia.
    + split.
      * apply sorted_app; [done|by apply sorted_filter|]. intros x y Hx Hy. rewrite Forall_forall in H8. destruct (H8 _ Hx) as (j & Hj & ->).
        apply elem_of_list_filter in Hy as [_ Hy]. rewrite Forall_forall in Hb. destruct (Hb _ Hy) as [_ Hy2]. etrans; [exact Hy2|]. apply Hmono. lia.
      * apply Forall_app. split.
        -- eapply Forall_impl; [exact H8|]. intros x (j & Hj & ->). split; [done|]. apply Hmono. lia.
        -- apply Forall_forall. intros y [_ Hy]%elem_of_list_filter. rewrite Forall_forall in Hb. destruct (Hb _ Hy) as [? Hy2]. split; [done|].
           etrans; [exact Hy2|]. apply Hmono. lia.
    + rewrite app_length. rewrite H2, rev_length. pose proof (omap_length after T) as Ho. assert (length T = length olds) as E by (rewrite <- (rev_length olds), <- H1, fmap_length; done).
      rewrite <- P, app_length. lia.
    + apply Forall_app. split.
      * apply Forall_forall. intros p Hp. rewrite Forall_forall in H6. specialize (H6 _ Hp).
        assert (p.1 ∈ rev olds) as Hin by (rewrite <- H1; by apply elem_of_list_fmap_1). rewrite elem_of_list_In, <- in_rev, <- elem_of_list_In in Hin.
        rewrite Forall_forall in Fo. specialize (Fo _ Hin). destruct p as [x f]. cbn in *. destruct f; [done|split; done..].
      * apply Forall_fmap. eapply Forall_impl; [exact Fr|]. intros x Hx. cbn in Hx |- *. right. by apply Z.nlt_ge in Hx.
    + intros _. apply Forall_app. split.
      * eapply Forall_impl; [exact H5|]. intros p. unfold fate_ok. destruct p.2; [done|intros (_ & _ & ? & _); lia|intros (_ & _ & ? & _); lia|intros (_ & ? & _); lia].
      * apply Forall_fmap. by apply Forall_forall.
Qed.

Lemma squeeze_trace fl olds tk it re rem tk' it' : squeeze ord clk cf fl olds tk it = Some (re, rem, tk', it') ->
  exists T done, olds = done ++ rem /\ T.*1 ≡ₚ done /\ re ≡ₚ omap after T /\ it' = it ++ omap sent T /\ (tk <= tk')%nat /\
  Forall (fate_ok fl tk tk') T /\ Forall (fun p => p.2 <> Stay) T /\ StronglySorted (fun x y => c_time y <= c_time x) re /\ Forall (newest tk tk') re /\
  (length re < length done)%nat.
Proof.
  revert tk it re rem tk' it'. induction olds as [|x olds IH]; intros tk it re rem tk' it'; [done|]. rewrite squeeze_cons.
  destruct (doomed fl tk (c_elem x)) eqn:Ed.
  - intros [= <- <- <- <-]. exists [(x, Gone tk)], [x]. cbn. rewrite app_nil_r. split_and!; try done; try (by repeat constructor); try lia; try (constructor; [|constructor]; unfold fate_ok; cbn; split_and!; [done|lia|]; intros ->; cbn; lia).
    all: destruct fl; cbn; lia.
  - assert (fl = false) as -> by (by destruct fl). cbn [rd]. destruct (squeeze _ _ _ _ _ _ _) as [[[[re1 rem1] tk1] it1]|] eqn:Es; [|done].
    destruct (IH _ _ _ _ _ _ Es) as (T & dn & H1 & H2 & H3 & H4 & H5 & H6 & H7 & H8 & H9 & H10). cbn zeta. rewrite after_reinsert_eq.
    destruct (pending (c_elem x)) eqn:Ep; intros [= <- <- <- <-].
    + exists (T ++ [(x, Sent tk (S tk) tk1)]), (x :: dn). rewrite fmap_app, !omap_app. cbn [fmap list_fmap fst omap list_omap after sent snd]. split_and!.
      * by rewrite H1.
      * rewrite H2. by rewrite Permutation_app_comm.
      * by rewrite H3.
      * rewrite H4. by rewrite app_assoc.
      * cbn. lia.
      * apply Forall_app. split; [eapply fates_weaken; [| |exact H6]; cbn; lia|]. constructor; [|constructor]. unfold fate_ok. cbn. split_and!; try done; lia.
      * apply Forall_app. split; [done|]. by constructor.
      * apply sorted_snoc; [done|]. eapply Forall_impl; [exact H9|]. intros y (j & Hj & ->). cbn. apply Hmono. lia.
      * apply Forall_app. split; [|constructor; [|constructor]].
        -- eapply Forall_impl; [exact H9|]. intros y (j & Hj & ?). exists j. cbn. split; [lia|done].
        -- exists (S tk). cbn. split; [lia|done].
      * rewrite app_length. cbn. lia.
    + exists (T ++ [(x, Back tk (S tk))]), (x :: dn). rewrite fmap_app, !omap_app. cbn [fmap list_fmap fst omap list_omap after sent snd]. split_and!.
      * by rewrite H1.
      * rewrite H2. by rewrite Permutation_app_comm.
      * by rewrite H3.
      * rewrite H4. by rewrite app_nil_r.
      * cbn. lia.
      * apply Forall_app. split; [eapply fates_weaken; [| |exact H6]; cbn; lia|]. constructor; [|constructor]. unfold fate_ok. cbn. split_and!; try done; try lia.
      * apply Forall_app. split; [done|]. by constructor.
      * apply sorted_snoc; [done|]. eapply Forall_impl; [exact H9|]. intros y (j & Hj & ->). cbn. apply Hmono. lia.
      * apply Forall_app. split; [|constructor; [|constructor]].
        -- eapply Forall_impl; [exact H9|]. intros y (j & Hj & ?). exists j. cbn. split; [lia|done].
        -- exists (S tk). cbn. split; [lia|done].
      * rewrite app_length. cbn. lia.
Qed.
Lemma insert_trace fl l a e tk it l' tk' it' : (forall i, 0 <= clk i) -> tidy clk l tk -> insert_new ord clk cf mx fl l a e tk it = Some (l', tk', it') ->
  exists T its l2, it' = it ++ its /\ passes fl (S tk) tk' l l2 its T /\ l' ≡ₚ Cell a (clk tk) e :: l2 /\ tidy clk l' tk'.
Proof.
  intros Hpos [Hs Hb]. unfold insert_new. destruct (Z.of_nat (length l) <? mx).
  - intros [= <- <- <-]. exists ((fun x => (x, Stay)) <$> l), [], l. rewrite app_nil_r. split_and!; try done.
    + unfold passes. rewrite stays_fst, stays_after, stays_sent. split_and!; try done. apply stays_ok.
    + split.
      * constructor; [done|]. eapply Forall_impl; [exact Hb|]. cbn. tauto.
      * constructor; [cbn; split; [done|apply Hmono; lia]|]. eapply Forall_impl; [exact Hb|]. cbn. intros x [? ?]. split; [done|]. etrans; [done|]. apply Hmono. lia.
  - destruct (squeeze _ _ _ _ _ _ _) as [[[[re rem] tk1] it1]|] eqn:Es; [|done]. intros [= <- <- <-].
    destruct (squeeze_trace _ _ _ _ Es) as (T & dn & H1 & H2 & H3 & H4 & H5 & H6 & H7 & H8 & H9 & H10).
    assert (l = rev rem ++ rev dn) as El by (rewrite <- rev_app_distr, <- H1, rev_involutive; done).
    exists (T ++ ((fun x => (x, Stay)) <$> rev rem)), (omap sent T), (re ++ rev rem). split_and!.
    + done.
    + unfold passes. rewrite fmap_app, stays_fst, !omap_app, stays_after, stays_sent, app_nil_r. split_and!; try done.
      * rewrite H2, El. rewrite <- (Permutation_rev dn). by rewrite Permutation_app_comm.
      * by rewrite H3.
      * apply Forall_app. split; [done|apply stays_ok].
    + by rewrite Permutation_middle.
    + rewrite El in Hs, Hb. apply Forall_app in Hb as [Hb _].
      assert (StronglySorted (fun x y => c_time y <= c_time x) (rev rem)) as Hs1.
      { clear -Hs. induction (rev rem) as [|z r IH]; [constructor|]. cbn in Hs. apply StronglySorted_inv in Hs as [Hs Hz]. apply Forall_app in Hz as [Hz _]. constructor; auto. }
      split.
      * apply sorted_app; [done| |].
        -- constructor; [done|]. eapply Forall_impl; [exact Hb|]. cbn. tauto.
        -- intros x y Hx Hy. rewrite Forall_forall in H9. destruct (H9 _ Hx) as (j & Hj & ->). apply elem_of_cons in Hy as [->|Hy]; [cbn; apply Hmono; lia|].
           rewrite Forall_forall in Hb. destruct (Hb _ Hy) as [_ Hy2]. etrans; [exact Hy2|]. apply Hmono. lia.
      * apply Forall_app. split; [|constructor].
        -- eapply Forall_impl; [exact H9|]. intros x (j & Hj & ->). split; [done|]. apply Hmono. lia.
        -- cbn. split; [done|apply Hmono; lia].
        -- eapply Forall_impl; [exact Hb|]. cbn. intros x [? ?]. split; [done|]. etrans; [done|]. apply Hmono. lia.
Qed.
(** Room can be made if some entry has to go; it cannot if none ever has to. *)
Lemma squeeze_some fl olds tk it : Exists (fun x => doomed fl tk (c_elem x) = true) olds -> squeeze ord clk cf fl olds tk it <> None.
Proof.
  intros H. revert tk H. induction olds as [|x olds IH]; intros tk H; [by apply Exists_nil in H|]. rewrite squeeze_cons.
  destruct (doomed fl tk (c_elem x)) eqn:Ed; [done|]. apply Exists_cons in H as [H|H]; [congruence|].
  specialize (IH (S (rd fl tk))). destruct (squeeze _ _ _ _ _ _ _) as [[[[re rem] tk1] it1]|]; [done|]. exfalso. apply IH; [|done].
  eapply Exists_impl; [exact H|]. intros y. apply doomed_mono. destruct fl; cbn; lia.
Qed.
Lemma squeeze_none fl olds tk it : Forall (fun x => forall i, (tk <= i)%nat -> doomed fl i (c_elem x) = false) olds -> squeeze ord clk cf fl olds tk it = None.
Proof.
  intros H. revert tk H. induction olds as [|x olds IH]; intros tk H; [done|]. rewrite squeeze_cons. apply Forall_cons in H as [Hx H]. rewrite Hx by lia.
  rewrite IH; [done|]. eapply Forall_impl; [exact H|]. intros y Hy i Hi. apply Hy. destruct fl; cbn in Hi; lia.
Qed.
End trace.
