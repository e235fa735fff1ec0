(** Where the tokens go: what was granted is sent, still accumulated, or lost. *)
From Verif Require Import Base Proto Signature SignatureSpec OpAgg OpAggSpec QuotaOpAggProofs Lru LruSpec LruSim Timeout TimeoutSign Agg QuotaAgg QuotaFuel QuotaSim QuotaStep QuotaStep2 QuotaTrace QuotaAggSpec QuotaCall QuotaInv QuotaMove QuotaLife QuotaAggClaims.
From stdpp Require Import gmap list.
Local Open Scope Z_scope.
Set Implicit Arguments.

Lemma lift_perm {A B} (xs ys : list A) (D : list (A * B)) : xs ≡ₚ ys -> D.*1 = ys -> exists D', D' ≡ₚ D /\ D'.*1 = xs.
Proof.
  intros P. revert D. induction P as [|x xs ys P IH|x y xs|xs ys zs P1 IH1 P2 IH2]; intros D E.
  - exists []. by destruct D.
  - destruct D as [|[x' b] D]; [done|]. injection E as -> E. destruct (IH D E) as (D' & P' & <-). exists ((x, b) :: D'). split; [by constructor|done].
  - destruct D as [|[x' b] [|[y' b'] D]]; try done. injection E as -> -> <-. exists ((y, b') :: (x, b) :: D). split; [constructor|done].
  - destruct (IH2 D E) as (D2 & P2' & E2). destruct (IH1 D2 E2) as (D1 & P1' & E1). exists D1. split; [by etrans|done].
Qed.
Lemma lift_perm' {A B} (xs : list A) (D : list (A * B)) : D.*1 ≡ₚ xs -> exists D', D' ≡ₚ D /\ D'.*1 = xs.
Proof. intros P. symmetry in P. by eapply lift_perm. Qed.
Lemma concat_perm {A} (xs ys : list (list A)) : xs ≡ₚ ys -> concat xs ≡ₚ concat ys.
Proof.
  induction 1 as [|x xs ys P IH|x y xs|xs ys zs P1 IH1 P2 IH2]; cbn; [done|by rewrite IH| |by etrans]. rewrite !app_assoc. by rewrite (Permutation_app_comm x y).
Qed.

Section acct.
Variable debug : bool.
Variable ord : hash_order.
Variable md5 : string -> string.
Variable clk : nat -> Z.
Variable cf : quota_config.
Notation mx := (qp_entries (qf_options cf)).
Notation idle := (idle_of cf).
Hypothesis Hclk : proper_clock clk.
Notation sg := (qsig md5).
Notation Good := (Good clk cf idle).
Notation item := (ReturnAllocateQuotaRequest ord cf).
Notation moved := (moved debug ord md5 clk cf idle).
Notation qreach := (qreach debug ord md5 clk cf).
Notation qrun := (qrun debug ord md5 clk cf).
Notation qbuilt := (qbuilt debug).
Notation charges := (charges debug ord cf).
Implicit Types (l : list cell) (x y : cell) (T : list (cell * fate)) (p : cell * fate) (e : quota_elem) (q : quota_request) (ev : quota_event) (st : quota_agg) (h : list quota_event)
  (D : list (cell * list quota_operation)) (g : list quota_operation).

(** The entry was made for a request of the history, and has accumulated the group [g]. *)
Definition made h e : Prop := exists ev, ev ∈ h /\ qv_call ev = QQuota (qe_request e).
Definition holds h e g : Prop := made h e /\ qbuilt (qe_agg e) g /\ (is_positive e = false -> qe_agg e = None).
Definition Held h l D : Prop := D.*1 ≡ₚ l /\ Forall (fun d => holds h (c_elem d.1) d.2) D.

Lemma built_none g : qbuilt None g -> g = [].
Proof. destruct g; [done|]. by intros (a & ? & _). Qed.
Lemma charged e g : qbuilt (qe_agg e) g -> is_aggregated e = true -> charges g (item e).
Proof.
  unfold is_aggregated, ReturnAllocateQuotaRequest. destruct (qe_agg e) as [a|] eqn:E; [|done]. intros B _. destruct g as [|f r]; [by cbn in B|].
  right. exists f, r, (QuotaToOperationProto ord a). split_and!; try done. by eapply qbuilt_adds.
Qed.
Lemma holds_refreshed h e g t : holds h e g -> holds h (refreshed t e) [].
Proof. intros (M & _). split_and!; done. Qed.

Lemma held_pass fl lo hi l l' its T h D : passes ord clk cf fl lo hi l l' its T -> Held h l D -> exists D' gs lost,
  Held h l' D' /\ Forall2 charges gs its /\ concat D.*2 ≡ₚ concat gs ++ concat D'.*2 ++ lost /\ (Forall (fun p => after clk p <> None) T -> lost = []).
Proof.
  intros (H1 & H2 & -> & H4 & _) [K1 K2]. rewrite <- H1 in K1. destruct (lift_perm' _ K1) as (D0 & P0 & E0).
  rewrite <- P0 in K2. setoid_rewrite <- (concat_perm (fmap_Permutation snd _ _ P0)).
  assert (exists D' gs lost, D'.*1 = omap (after clk) T /\ Forall (fun d => holds h (c_elem d.1) d.2) D' /\ Forall2 charges gs (omap (sent ord cf) T) /\
    concat D0.*2 ≡ₚ concat gs ++ concat D'.*2 ++ lost /\ (Forall (fun p => after clk p <> None) T -> lost = [])) as (D' & gs & lost & B1 & B2 & B3 & B4 & B5).
  2: { exists D', gs, lost. split_and!; try done. split; [|done]. by rewrite B1, H2. }
  clear H1 H2 K1 P0 D. revert D0 E0 K2. induction T as [|p T IH]; intros D E K.
  { exists [], [], []. destruct D; [|done]. split_and!; try done; constructor. }
  destruct D as [|[x g] D]; [done|]. rewrite fmap_cons in E. injection E as -> E. apply Forall_cons in K as [Kx K]. apply Forall_cons in H4 as [F H4].
  destruct (IH H4 D E K) as (D' & gs & lost & B1 & B2 & B3 & B4 & B5). cbn [fst snd] in Kx. cbn [omap list_omap fmap list_fmap concat snd].
  unfold sent, after, fate_ok in *. destruct p.2 as [|i j|i j k|i] eqn:Ep.
  - exists ((p.1, g) :: D'), gs, lost. cbn [fmap list_fmap fst snd concat]. split_and!; try done.
    + by rewrite B1.
    + by constructor.
    + rewrite B4. rewrite !app_assoc. f_equiv. f_equiv. by rewrite Permutation_app_comm.
    + intros H. apply Forall_cons in H as [_ H]. auto.
  - exists ((Cell (c_addr p.1) (clk j) (c_elem p.1), g) :: D'), gs, lost. cbn [fmap list_fmap fst snd concat]. split_and!; try done.
    + by rewrite B1.
    + by constructor.
    + rewrite B4. rewrite !app_assoc. f_equiv. f_equiv. by rewrite Permutation_app_comm.
    + intros H. apply Forall_cons in H as [_ H]. auto.
  - exists ((Cell (c_addr p.1) (clk j) (refreshed (clk k) (c_elem p.1)), []) :: D'), (g :: gs), lost. cbn [fmap list_fmap fst snd concat app]. split_and!; try done.
    + by rewrite B1.
    + constructor; [|done]. by eapply holds_refreshed.
    + constructor; [|done]. apply charged; [apply Kx|]. destruct F as (_ & Pe & _). by apply pending_open.
    + by rewrite B4, <- app_assoc.
    + intros H. apply Forall_cons in H as [_ H]. auto.
  - exists D', gs, (g ++ lost). split_and!; try done.
    + rewrite B4. rewrite !app_assoc. f_equiv. rewrite <- !app_assoc. by rewrite Permutation_app_comm, <- app_assoc.
    + intros H. apply Forall_cons in H as [H _]. unfold after in H. by rewrite Ep in H.
Qed.
Lemma held_mono h h' l D : (forall ev, ev ∈ h -> ev ∈ h') -> Held h l D -> Held h' l D.
Proof. intros H [K1 K2]. split; [done|]. eapply Forall_impl; [exact K2|]. intros d ((ev & Hev & E) & B). split; [exists ev; auto|done]. Qed.

Lemma looked_holds h e g tk its : holds h e g -> exists g' gs add resent,
  holds h (looked ord clk cf e tk its).1.1 g' /\ (looked ord clk cf e tk its).2 = its ++ add ++ resent /\ Forall2 charges gs add /\ Forall (repeats h) resent /\ g = concat gs ++ g'.
Proof.
  intros K. unfold looked. destruct (qe_in_flight e).
  { exists g, [], [], []. cbn. rewrite app_nil_r. split_and!; try done; constructor. }
  destruct (_ <=? _).
  2: { exists g, [], [], []. cbn. rewrite app_nil_r. split_and!; try done; constructor. }
  cbn [fst snd]. destruct (is_aggregated e) eqn:Ea.
  - assert (is_positive e = true) as -> by (apply aggregated_positive; [done|apply K]). exists [], [g], [item e], []. cbn. rewrite !app_nil_r. split_and!; try done.
    + by eapply holds_refreshed.
    + constructor; [|constructor]. apply charged; [apply K|done].
  - destruct K as ((ev & Hev & Ec) & B & Bare). assert (qe_agg e = None) as En by (unfold is_aggregated in Ea; by destruct (qe_agg e)). rewrite En in B. apply built_none in B as ->.
    assert (item e = qe_request e) as -> by (unfold ReturnAllocateQuotaRequest; by rewrite En).
    exists [], [], [], [if is_positive e then qe_request e else in_normal_mode (qe_request e)]. cbn [app concat]. split_and!; try done.
    + split; [by exists ev|done].
    + constructor; [|constructor]. exists ev, (qe_request e). split_and!; try done. destruct (is_positive e); auto.
Qed.

Lemma omap_addrs T l' : l' ≡ₚ omap (after clk) T -> NoDup (c_addr <$> T.*1) -> NoDup (c_addr <$> l').
Proof.
  intros P N. rewrite P. clear P. induction T as [|p T IH]; [constructor|]. cbn in *. apply NoDup_cons in N as [N1 N2]. destruct (after clk p) as [x|] eqn:E; [|auto].
  cbn. apply NoDup_cons. split; [|auto]. intros Hin. apply N1. apply elem_of_list_fmap in Hin as (y & Ey & Hy). apply elem_of_list_omap in Hy as (p' & Hp & Hy).
  rewrite <- (after_addr clk p E), Ey, (after_addr clk p' Hy). by apply elem_of_list_fmap_1, elem_of_list_fmap_1.
Qed.
Definition Balance l h : Prop := exists D gs sentq resent lost,
  Held h l D /\ qflushed h ≡ₚ sentq ++ resent /\ Forall2 charges gs sentq /\ Forall (repeats h) resent /\
  granted h ≡ₚ concat gs ++ concat D.*2 ++ lost /\ (nothing_leaves h -> never_denied h -> lost = []).

Lemma qrun_last fl tk nx l st h : qrun fl tk nx l st h -> (h = [] /\ l = []) \/ exists h0 ev, h = h0 ++ [ev] /\ qv_after ev = st.
Proof. destruct 1; [by left|]. right. eexists _, _. split; [reflexivity|done]. Qed.
Lemma no_gone fl lo hi l l' its T : passes ord clk cf fl lo hi l l' its T -> NoDup (c_addr <$> l) -> (forall x, x ∈ l -> c_addr x ∈ c_addr <$> l') -> Forall (fun p => after clk p <> None) T.
Proof.
  intros P N H. apply Forall_forall. intros p Hp E. pose proof P as (H1 & _). assert (p.1 ∈ l) as Hin by (rewrite <- H1; by apply elem_of_list_fmap_1).
  apply H in Hin. apply elem_of_list_fmap in Hin as (y & Ey & Hy). destruct (passes_from P Hy) as (p' & Hp' & Ha & _).
  assert (p' = p) as ->; [|congruence]. rewrite <- H1, <- list_fmap_compose in N. eapply (nodup_fst (c_addr ∘ fst)); [exact N|done..|].
  cbn. by rewrite <- (after_addr clk p' Ha).
Qed.

Lemma run_balance fl tk nx l st h : qrun fl tk nx l st h -> Balance l h.
Proof.
  induction 1 as [c u G Hn|fl tk nx l st h call res fl' l' c' u' Hr IH M G'].
  { exists [], [], [], [], []. cbn. split_and!; try done; constructor; constructor. }
  destruct (qrun_good Hr) as (c & u & -> & G & Et & En).
  set (ev := QuotaEvent call res tk (l_tick c') (QuotaAgg (Some c') u' fl')).
  assert (Mono : forall ev0, ev0 ∈ h -> ev0 ∈ h ++ [ev]) by set_solver.
  assert (Stays : nothing_leaves (h ++ [ev]) -> nothing_leaves h /\ forall x, x ∈ l -> c_addr x ∈ c_addr <$> l').
  { intros NL. split.
    - intros h1 ev1 ev2 h2 k -> Hc. apply (NL h1 ev1 ev2 (h2 ++ [ev])); [by rewrite <- app_assoc|done].
    - intros x Hx. destruct (qrun_last Hr) as [[-> ->]|(h0 & ev0 & -> & E0)]; [by apply elem_of_nil in Hx|].
      assert (entry (qv_after ev0) (c_key x) = Some (c_addr x)) as Ent by (rewrite E0; apply (entry_cell fl (c_key x) (c_addr x) G); by exists x).
      destruct (NL h0 ev0 ev [] (c_key x)) as [_ S]; [by rewrite <- app_assoc|unfold qcached; by rewrite Ent|].
      rewrite Ent in S. apply (entry_cell fl' (c_key x) (c_addr x) G') in S as (y & Hy & _ & <-). by apply elem_of_list_fmap_1. }
  assert (Denied : never_denied (h ++ [ev]) -> never_denied h) by (intros ND ev0 q r Hin; apply ND; set_solver).
  destruct IH as (D & gs & sentq & resent & lost & Hd & Hf & Hc & Hrep & Hg & Hl).
  pose proof (held_mono Mono Hd) as Hd'. assert (Forall (repeats (h ++ [ev])) resent) as Hrep'.
  { eapply Forall_impl; [exact Hrep|]. intros q (ev0 & q0 & Hin & ?). exists ev0, q0. split; [auto|done]. }
  assert (qflushed (h ++ [ev]) = qflushed h ++ qres_flushed res) as Ef by (unfold qflushed; rewrite bind_app; cbn; by rewrite app_nil_r).
  assert (granted (h ++ [ev]) = granted h ++ granted_op ev) as Eg by (unfold granted; rewrite bind_app; cbn; by rewrite app_nil_r).
  unfold Balance. rewrite Ef, Eg. clear Ef Eg. pose proof (good_addrs G) as NA.
  (* the entries after expiry *)
  assert (Pass : forall hi l1 its T, passes ord clk cf fl tk hi l l1 its T -> exists D1 gs1 lost1, Held (h ++ [ev]) l1 D1 /\ Forall2 charges gs1 its /\
    concat D.*2 ≡ₚ concat gs1 ++ concat D1.*2 ++ lost1 /\ ((forall x, x ∈ l -> c_addr x ∈ c_addr <$> l1) -> lost1 = [])).
  { intros hi l1 its T P. destruct (held_pass P Hd') as (D1 & gs1 & lost1 & A1 & A2 & A3 & A4). exists D1, gs1, lost1. split_and!; try done. intros H. apply A4. by eapply no_gone. }
  inversion M; subst.
  - exists D, gs, sentq, resent, lost. cbn. rewrite !app_nil_r. split_and!; try done. intros NL ND. apply Hl; [by apply Stays|auto].
  - parts. destruct (Pass _ _ _ _ P) as (D1 & gs1 & lost1 & [A1 A1'] & A2 & A3 & A4). destruct (lift_perm' _ A1) as (D1' & Pd & Ed).
    rewrite <- Pd in A1'. rewrite <- (concat_perm (fmap_Permutation snd _ _ Pd)) in A3. clear A1 Pd D1.
    apply fmap_app_inv in Ed as (Da & Dx & Ea & Ex & ->). symmetry in Ex. apply fmap_cons_inv in Ex as ([x' g] & Db & Ex & Eb & ->). cbn [fst] in Ex. subst x' a b.
    rewrite Forall_app, Forall_cons in A1'. destruct A1' as (Fa & Fx & Fb). cbn [fst snd] in Fx. rewrite fmap_app, fmap_cons, concat_app in A3. cbn [concat snd] in A3.
    destruct (looked_holds tk1 its Fx) as (g' & gs2 & add & resent2 & K & El & Hc2 & Hr2 & Eg). rewrite El. set (e1 := (looked ord clk cf (c_elem x) tk1 its).1.1) in *.
    assert (exists g2, holds (h ++ [ev]) e g2 /\ g2 = g' ++ granted_op ev) as (g2 & K2 & Eg2).
    { unfold granted_op, ev. cbn [qv_call qv_result qres_status qres_response]. unfold counted, QAggregate in CE. destruct (is_positive e1) eqn:Ep.
      - exists (g' ++ [qop_get (qr_operation q)]). destruct K as (Km & Kb & Kp).
        assert (qbuilt (qe_agg e) (g' ++ [qop_get (qr_operation q)])) as B by (eapply qbuilt_more; [exact Kb|exact CE]).
        destruct (match qe_agg e1 with Some _ => _ | None => _ end) as [ag| | |]; try done. injection CE as <-.
        change (qe_response (set_qe_agg (Some ag) e1)) with (qe_response e1). unfold is_positive in Ep. destruct (qs_errors (qe_response e1)) eqn:Er; [|done]. split; [|done].
        split_and!; [exact Km|exact B|]. intros Hn. unfold is_positive in Hn. change (qe_response (set_qe_agg (Some ag) e1)) with (qe_response e1) in Hn. by rewrite Er in Hn.
      - injection CE as <-. exists g'. split; [done|]. unfold is_positive in Ep. destruct (qs_errors (qe_response e1)); [done|]. by rewrite app_nil_r. }
    exists (Da ++ (Cell (c_addr x) (c_time x) e, g2) :: Db), (gs ++ gs1 ++ gs2), (sentq ++ its ++ add), (resent ++ resent2), (lost ++ lost1).
    rewrite fmap_app, fmap_cons, concat_app. cbn [concat snd]. split_and!.
    + split; [by rewrite fmap_app, fmap_cons|]. rewrite Forall_app, Forall_cons. done.
    + cbn [qres_flushed]. rewrite Hf. rewrite !app_assoc. f_equiv. rewrite <- !app_assoc. f_equiv. rewrite Permutation_app_comm, <- !app_assoc. done.
    + by repeat apply Forall2_app.
    + by apply Forall_app.
    + rewrite Hg, A3, Eg, Eg2, !concat_app. solve_Permutation.
    + intros NL ND. destruct (Stays NL) as [NL' S]. rewrite (Hl NL' (Denied ND)). cbn. apply A4. intros y Hy. apply S in Hy. rewrite !fmap_app, !fmap_cons in *. done.
  - parts. destruct (Pass _ _ _ _ P) as (D1 & gs1 & lost1 & A1 & A2 & A3 & A4). destruct (held_pass P2 A1) as (D2 & gs2 & lost2 & B1 & B2 & B3 & B4).
    exists ((Cell (p_next u) (clk (S tk1)) (fresh_elem md5 q (clk tk1)), []) :: D2), (gs ++ gs1 ++ gs2 ++ [[qop_get (qr_operation q)]]), (sentq ++ its ++ its2 ++ [q]), resent, (lost ++ lost1 ++ lost2).
    cbn [fmap list_fmap fst snd concat app]. split_and!.
    + destruct B1 as [B1 B1']. split; [rewrite PE; cbn; by rewrite B1|]. constructor; [|done]. cbn [fst snd c_elem]. split_and!; try done. exists ev. split; [set_solver|done].
    + cbn [qres_flushed]. rewrite Hf. solve_Permutation.
    + repeat apply Forall2_app; try done. constructor; [|constructor]. left. eexists. split; [reflexivity|done].
    + done.
    + unfold granted_op, ev. cbn [qv_call qv_result qres_status qres_response qs_errors empty_quota_response]. rewrite Hg, A3, B3, !concat_app. cbn [concat]. solve_Permutation.
    + intros NL ND. destruct (Stays NL) as [NL' S]. rewrite (Hl NL' (Denied ND)).
      assert (forall x, x ∈ l -> c_addr x ∈ c_addr <$> l2) as S2.
      { intros x Hx. pose proof (S x Hx) as HS. rewrite PE in HS. cbn in HS. apply elem_of_cons in HS as [HS|HS]; [|done]. exfalso. pose proof (good_fresh G Hx). lia. }
      assert (forall x, x ∈ l -> c_addr x ∈ c_addr <$> l1) as S1.
      { intros x Hx. apply S2 in Hx. apply elem_of_list_fmap in Hx as (y & -> & Hy). destruct (passes_from P2 Hy) as (p & Hp & Ha & Hin). rewrite (after_addr clk p Ha). by apply elem_of_list_fmap_1. }
      rewrite (A4 S1). rewrite B4; [done|]. eapply no_gone; [exact P2| |].
      { destruct P as (P1 & P1' & _). eapply omap_addrs; [exact P1'|by rewrite P1]. }
      intros y Hy. destruct (passes_from P Hy) as (p & Hp & Ha & Hin). rewrite (after_addr clk p Ha). by apply S2.
  - parts. destruct (Pass _ _ _ _ P) as (D1 & gs1 & lost1 & [A1 A1'] & A2 & A3 & A4). destruct (lift_perm' _ A1) as (D1' & Pd & Ed).
    rewrite <- Pd in A1'. rewrite <- (concat_perm (fmap_Permutation snd _ _ Pd)) in A3. clear A1 Pd D1.
    apply fmap_app_inv in Ed as (Da & Dx & Ea & Ex & ->). symmetry in Ex. apply fmap_cons_inv in Ex as ([x' g] & Db & Ex & Eb & ->). cbn [fst] in Ex. subst x' a b.
    rewrite Forall_app, Forall_cons in A1'. destruct A1' as (Fa & Fx & Fb). cbn [fst snd] in Fx. rewrite fmap_app, fmap_cons, concat_app in A3. cbn [concat snd] in A3.
    set (e' := set_quota_response r (set_qe_in_flight false (c_elem x))).
    assert (exists g2 lost2, holds (h ++ [ev]) e' g2 /\ g ≡ₚ g2 ++ lost2 /\ (granted_by r -> lost2 = [])) as (g2 & lost2 & K2 & Eg2 & Hl2).
    { unfold e', set_quota_response, granted_by. destruct Fx as (Km & Kb & Kp). destruct (qs_errors r) as [|er rs] eqn:Er; cbn [length]; change (0 <? Z.of_nat 0) with false.
      - exists g, []. rewrite app_nil_r. split_and!; try done. split_and!; try done. intros Hn. unfold is_positive in Hn. cbn [set_qe_response qe_response] in Hn. by rewrite Er in Hn.
      - assert (0 <? Z.of_nat (S (length rs)) = true) as -> by (apply Z.ltb_lt; lia). exists [], g. split_and!; try done. }
    exists (Da ++ (Cell (c_addr x) (c_time x) e', g2) :: Db), (gs ++ gs1), (sentq ++ its), resent, (lost ++ lost1 ++ lost2).
    rewrite fmap_app, fmap_cons, concat_app. cbn [concat snd]. split_and!.
    + split; [by rewrite fmap_app, fmap_cons|]. rewrite Forall_app, Forall_cons. done.
    + cbn [qres_flushed]. rewrite Hf. solve_Permutation.
    + by apply Forall2_app.
    + done.
    + unfold granted_op, ev. cbn [qv_call]. rewrite Hg, A3, Eg2, !concat_app. solve_Permutation.
    + intros NL ND. destruct (Stays NL) as [NL' S]. rewrite (Hl NL' (Denied ND)). rewrite Hl2.
      * rewrite app_nil_r. cbn. apply A4. intros y Hy. apply S in Hy. rewrite !fmap_app, !fmap_cons in *. done.
      * eapply (ND ev q r); [set_solver|done].
  - parts. destruct (Pass _ _ _ _ P) as (D1 & gs1 & lost1 & A1 & A2 & A3 & A4). exists D1, (gs ++ gs1), (sentq ++ its), resent, (lost ++ lost1). split_and!; try done.
    + cbn [qres_flushed]. rewrite Hf. solve_Permutation.
    + by apply Forall2_app.
    + unfold granted_op, ev. cbn [qv_call]. rewrite Hg, A3, !concat_app. solve_Permutation.
    + intros NL ND. destruct (Stays NL) as [NL' S]. rewrite (Hl NL' (Denied ND)). by apply A4.
  - parts. destruct (Pass _ _ _ _ P) as (D1 & gs1 & lost1 & A1 & A2 & A3 & A4). exists D1, (gs ++ gs1), (sentq ++ its), resent, (lost ++ lost1). split_and!; try done.
    + cbn [qres_flushed]. rewrite Hf. solve_Permutation.
    + by apply Forall2_app.
    + unfold granted_op, ev. cbn [qv_call]. rewrite Hg, A3, !concat_app. solve_Permutation.
    + intros NL ND. destruct (Stays NL) as [NL' S]. rewrite (Hl NL' (Denied ND)). by apply A4.
  - exists [], gs, sentq, resent, (concat D.*2 ++ lost). cbn [qres_flushed fmap list_fmap concat app]. rewrite !app_nil_r. split_and!; try done.
    + intros NL ND. destruct (Stays NL) as [NL' S]. rewrite (Hl NL' (Denied ND)). destruct l as [|x l0]; [|exfalso; eapply not_elem_of_nil; apply (S x); constructor].
      destruct Hd as [Hd _]. destruct D; [done|]. by apply Permutation_nil_r in Hd.
Qed.

(** ** What is accumulated *)
Definition kept (x : cell) : option quota_operation := QuotaToOperationProto ord <$> qe_agg (c_elem x).
Lemma accumulated_cells c u fl l : Good c u l -> accumulated ord (QuotaAgg (Some c) u fl) ≡ₚ omap kept l.
Proof.
  intros (L & R & _ & _ & _). pose proof (rep_shape R) as S. unfold accumulated. cbn [qg_cache qg_pool].
  assert (map_to_list (l_table c) ≡ₚ (fun p : node => (e_key p.2, p.1)) <$> L) as ->.
  { apply NoDup_Permutation; [apply NoDup_map_to_list| |].
    - pose proof (sh_ids S) as N. rewrite app_nil_r in N. eapply (NoDup_fmap_1 snd). rewrite <- list_fmap_compose. exact N.
    - intros [k i]. rewrite elem_of_map_to_list, (sh_table S), elem_of_list_fmap. split.
      + intros (e & He & <-). by exists (i, e).
      + intros ([i' e] & [= -> ->] & He). by exists e. }
  assert (forall p : node, p ∈ L -> l_heap c !! p.1 = Some p.2) as Hh.
  { intros [i e] Hp. apply (sh_heap S). rewrite app_nil_r. done. }
  pose proof (rep_same R) as F. clear S R. induction F as [|p x L l H F IH]; [done|]. cbn [fmap list_fmap omap list_omap snd].
  rewrite (Hh p) by constructor. destruct H as (_ & -> & _ & ->). unfold kept at 1.
  assert (forall p : node, p ∈ L -> l_heap c !! p.1 = Some p.2) as Hh' by (intros; apply Hh; by constructor).
  destruct (qe_agg (c_elem x)); cbn [fmap option_fmap option_map]; [constructor|]; by apply IH.
Qed.
Lemma held_groups h D : Forall (fun d => holds h (c_elem d.1) d.2) D -> exists held,
  Forall2 (adds_up debug ord) held (omap kept D.*1) /\ concat held = concat D.*2.
Proof.
  induction 1 as [|[x g] D H F (held & IH1 & IH2)]; [exists []; split; [constructor|done]|].
  cbn [fst snd fmap list_fmap omap list_omap concat]. destruct H as (_ & B & _). unfold kept at 1. cbn [fst snd] in B. destruct (qe_agg (c_elem x)) as [a|] eqn:Ea.
  - exists (g :: held). cbn. rewrite IH2. split; [|done]. constructor; [|done]. destruct g as [|f r]; [done|]. exists f, r. split; [done|]. by eapply qbuilt_adds.
  - apply built_none in B as ->. by exists held.
Qed.

Lemma balance st h : qreach st h -> exists gs sentq resent held accs lost,
  qflushed h ≡ₚ sentq ++ resent /\ Forall2 charges gs sentq /\ Forall (repeats h) resent /\
  accumulated ord st ≡ₚ accs /\ Forall2 (adds_up debug ord) held accs /\
  granted h ≡ₚ concat gs ++ concat held ++ lost /\ (nothing_leaves h -> never_denied h -> lost = []).
Proof.
  intros Hr. destruct (Z.le_gt_cases mx 0) as [Hm|Hm].
  - destruct (reach_off Hm Hr) as [E F]. exists [], [], [], [], [], [].
    assert (qflushed h = [] /\ granted h = []) as [-> ->].
    { unfold qflushed, granted. clear -F. induction F as [|ev h (H1 & H2 & H3) F [IH1 IH2]]; [done|]. cbn. by rewrite H2, H3, IH1, IH2. }
    unfold accumulated. rewrite E. split_and!; try done.
  - assert (0 < mx) as Hm' by lia. destruct (reach_run Hclk Hm' Hr) as (fl & tk & nx & l & R). destruct (qrun_good R) as (c & u & -> & G & _ & _).
    destruct (run_balance R) as (D & gs & sentq & resent & lost & [Hd1 Hd2] & Hf & Hc & Hrep & Hg & Hl).
    destruct (held_groups Hd2) as (held & H1 & H2). exists gs, sentq, resent, held, (omap kept D.*1), lost. rewrite H2. split_and!; try done.
    rewrite (accumulated_cells fl G). by rewrite Hd1.
Qed.

(** ** Sums *)
Lemma sum_perm (xs ys : list Z) : xs ≡ₚ ys -> sum_Z xs = sum_Z ys.
Proof. exact (@LruSim.sum_Z_perm xs ys). Qed.
Lemma sum_app (xs ys : list Z) : sum_Z (xs ++ ys) = sum_Z xs + sum_Z ys.
Proof. exact (LruSim.sum_Z_app xs ys). Qed.
Lemma tokens_perm name ops ops' : ops ≡ₚ ops' -> tokens name ops = tokens name ops'.
Proof. intros P. apply sum_perm. by rewrite P. Qed.
Lemma tokens_app name ops ops' : tokens name (ops ++ ops') = tokens name ops + tokens name ops'.
Proof. unfold tokens. by rewrite bind_app, fmap_app, sum_app. Qed.
Lemma amounts_ints name ops : Forall simple_quota ops -> exists zs, ints_are (ops ≫= amounts_of name) zs /\ tokens name ops = sum_Z zs.
Proof.
  intros F. assert (Forall (fun v => exists z, mv_value v = VInt64 z) (ops ≫= amounts_of name)) as Fv.
  { apply Forall_forall. intros v (o & Hv & Ho)%elem_of_list_bind. unfold amounts_of in Hv. apply elem_of_list_bind in Hv as (s & Hv & Hs).
    apply elem_of_list_filter in Hs as [_ Hs]. rewrite Forall_forall in F. destruct (F o Ho s Hs) as (w & z & Ew & Ez). rewrite Ew in Hv. apply elem_of_list_singleton in Hv as ->. eauto. }
  unfold tokens. induction Fv as [|v vs [z Ez] Fv (zs & IH1 & IH2)]; [by exists []|].
  exists (z :: zs). unfold ints_are in *. rewrite !fmap_cons, LruSim.sum_Z_cons, IH2, LruSim.sum_Z_cons, IH1, Ez. split; [|done]. unfold int_of. by rewrite Ez.
Qed.
Lemma aggregate_tokens f r o name : quota_aggregate debug ord f r = Ok o -> Forall simple_quota (f :: r) -> tokens name [o] = tokens name (f :: r).
Proof.
  intros E F. destruct (quota_totals debug ord _ _ _ E F) as (_ & Hn & Ht & _). destruct (amounts_ints name F) as (zs & Hz & ->). destruct zs as [|z zs].
  - unfold ints_are in Hz. apply fmap_nil_inv in Hz. unfold tokens. cbn [mbind list_bind]. rewrite app_nil_r.
    assert (amounts_of name o = []) as ->; [|done].
    destruct (amounts_of name o) as [|v vs] eqn:Ea; [done|]. assert (v ∈ amounts_of name o) as Hv by (rewrite Ea; constructor).
    unfold amounts_of in Hv. apply elem_of_list_bind in Hv as (s & Hv & Hs). apply elem_of_list_filter in Hs as [Es Hs].
    assert (name ∈ mvs_name <$> qo_metrics o) as Hin by (apply elem_of_list_fmap; eauto). apply Hn in Hin as (o' & Ho' & Hin). apply elem_of_list_fmap in Hin as (s' & Es' & Hs').
    rewrite Forall_forall in F. destruct (F o' Ho' s' Hs') as (w & z & Ew & _). exfalso. assert (w ∈ (f :: r) ≫= amounts_of name) as H; [|rewrite Hz in H; by apply elem_of_nil in H].
    apply elem_of_list_bind. exists o'. split; [|done]. unfold amounts_of. apply elem_of_list_bind. exists s'. split; [rewrite Ew; constructor|]. by apply elem_of_list_filter.
  - destruct (Ht name (z :: zs) Hz ltac:(done)) as (v & Ev & Evz). unfold tokens. cbn [mbind list_bind]. rewrite Ev. cbn. rewrite Evz. cbn. lia.
Qed.
Lemma granted_asked h o : o ∈ granted h -> o ∈ asked h.
Proof.
  unfold granted, asked. rewrite !elem_of_list_bind. intros (ev & Ho & Hev). exists ev. split; [|done]. unfold granted_op in Ho. destruct (qv_call ev); try (by apply elem_of_nil in Ho).
  destruct (qres_status _); try (by apply elem_of_nil in Ho). destruct (qres_response _); try (by apply elem_of_nil in Ho). destruct (qs_errors _); [done|by apply elem_of_nil in Ho].
Qed.
Lemma balance_tokens st h : qreach st h -> Forall simple_quota (asked h) -> exists resent lost,
  Forall (repeats h) resent /\ resent ⊆ qflushed h /\ lost ⊆ granted h /\ (nothing_leaves h -> never_denied h -> lost = []) /\
  forall name, tokens name (granted h) + tokens name (qop_get ∘ qr_operation <$> resent) =
    tokens name (qop_get ∘ qr_operation <$> qflushed h) + tokens name (accumulated ord st) + tokens name lost.
Proof.
  intros Hr Hs. destruct (balance Hr) as (gs & sentq & resent & held & accs & lost & H1 & H2 & H3 & H4 & H5 & H6 & H7).
  assert (Forall simple_quota (granted h)) as Hg.
  { apply Forall_forall. intros o Ho. rewrite Forall_forall in Hs. by apply Hs, granted_asked. }
  rewrite H6, !Forall_app in Hg. destruct Hg as (Fg & Fh & _). exists resent, lost. split; [done|]. split; [|split; [|split; [done|]]].
  { intros q Hq. rewrite H1. set_solver. } { intros o Ho. rewrite H6. set_solver. }
  intros name. rewrite (tokens_perm name H6). rewrite (tokens_perm name H4). rewrite (tokens_perm name (fmap_Permutation (qop_get ∘ qr_operation) _ _ H1)).
  rewrite fmap_app, !tokens_app.
  assert (tokens name (concat gs) = tokens name (qop_get ∘ qr_operation <$> sentq)) as ->.
  { clear -H2 Fg. induction H2 as [|g q gs sentq H H2 IH]; [done|]. cbn [concat] in *. apply Forall_app in Fg as [F1 F2]. rewrite fmap_cons, tokens_app.
    change (?a :: ?b) with ([a] ++ b). rewrite tokens_app, (IH F2). f_equal. destruct H as [(o & -> & <-)|(f & r & o & -> & E & ->)]; [done|].
    symmetry. by apply aggregate_tokens. }
  assert (tokens name (concat held) = tokens name accs) as ->; [|lia].
  clear -H5 Fh. induction H5 as [|g o gs os H H5 IH]; [done|]. cbn [concat] in *. apply Forall_app in Fh as [F1 F2]. rewrite tokens_app.
  change (o :: os) with ([o] ++ os). rewrite tokens_app, (IH F2). f_equal. destruct H as (f & r & -> & E). symmetry. by apply aggregate_tokens.
Qed.
End acct.
