(** How old the answers are that callers of Check are given from the cache: proofs for PropsClient6.v. *)
From Verif Require Import Base Proto Signature OpAgg Lru LruSpec Timeout Agg CheckAgg CheckAggSpec CheckAggClaims QuotaAgg QuotaAggSpec ReportAgg ReportAggSpec Client ClientSpec ClientInv ClientCalls ClientStage ClientFacts ClientClaims ClientAnswers.
From stdpp Require Import gmap list.
Local Open Scope Z_scope.
Set Implicit Arguments.

Lemma creach_at_event ord md5 clk cf st h n ev : creach ord md5 clk cf st h -> h !! n = Some ev ->
  exists st0 h1 h2, h = h1 ++ ev :: h2 /\ length h1 = n /\ creach ord md5 clk cf st0 h1 /\ cstep ord md5 clk cf (cv_call ev) st0 = Ok (cv_after ev, cv_result ev) /\
    ev = CheckEvent (cv_call ev) (cv_result ev) (readings st0) (readings (cv_after ev)) (cv_after ev).
Proof.
  intros R. revert n ev. induction R as [st H|st h call st' res R IH Hs]; intros n ev Hn; [done|].
  apply lookup_app_Some in Hn as [Hn|[Hle Hn]].
  - destruct (IH _ _ Hn) as (st0 & h1 & h2 & -> & Hl & R1 & E). exists st0, h1, (h2 ++ [CheckEvent call res (readings st) (readings st') st']). split; [by rewrite <- app_assoc|done].
  - apply list_lookup_singleton_Some in Hn as [Hz <-]. exists st, h, []. split_and!; [done|lia|done|done|done].
Qed.

Section fresh.
Variable debug : bool.
Variable ord : hash_order.
Variable md5 : string -> string.
Variable clk : kind -> nat -> Z.
Variable cf : client_config.
Notation reach := (reach debug ord md5 clk cf).
Implicit Types (w : world) (t : nat) (ths : list (list instr)) (tr : list event).

Lemma told_fresh ths w t c r t0 a q : proper_clock (clk KCheck) -> reach (ths, w) -> EDone t c SOk r ∈ w_trace w -> EStart t0 c a ∈ w_trace w ->
  ap_request a = RqCheck q -> (forall t1 m q, ETransport t1 m (FromCall c) q ∉ w_trace w) ->
  exists t1 n ev n0 ev0 now before, EAgg t1 KCheck n (Some c) ∈ w_trace w /\ (n0 < n)%nat /\
    ag_hc (w_aggs w) !! n = Some ev /\ ag_hc (w_aggs w) !! n0 = Some ev0 /\
    during (clk KCheck) now ev /\ during (clk KCheck) before ev0 /\ now - before < flush_interval_in_cycle (cf_checks cf) /\
    ((exists q' rp t2 m c' t3 b, cv_call ev0 = CCacheResponse q' (check_reply rp) /\ sig_of ord md5 q' = sig_of ord md5 q /\ r = RpCheck (check_reply rp) /\
        ETransport t2 m (FromCall c') (RqCheck q') ∈ w_trace w /\ ECompleted t3 m SOk rp b ∈ w_trace w) \/
     (exists q' t2 c' a', cv_call ev0 = CCheck q' /\ cres_status (cv_result ev0) = SNotFound /\ sig_of ord md5 q' = sig_of ord md5 q /\
        EAgg t2 KCheck n0 (Some c') ∈ w_trace w /\ EStart t2 c' a' ∈ w_trace w /\ ap_request a' = RqCheck q' /\ has_transport cf a' = true)).
Proof.
  intros Hclk R H H0 Ha Hno. destruct (has_transport cf a) eqn:Ht.
  2:{ destruct (answer R H) as (a' & l & S & Hl). destruct (settled_start S) as (t' & l' & El).
      destruct (start_unique (t:=t') (c:=c) (a:=a') (t':=t0) (a':=a) R) as [_ ->]; [|done|].
      { eapply story_elem; [exact Hl|]. rewrite El. constructor. } inversion S; congruence. }
  destruct (answer_now R H H0 Ht Hno) as (t1 & n & rs & H1 & Hn & Es & ->). rewrite Ha in H1, Hn. cbn [kind_of agg_call_of calls] in H1, Hn.
  apply list_lookup_fmap_Some in Hn as (ev & Hn & [= Hcall ->]). destruct (reach_sequential R) as (Rc & _).
  destruct (creach_at_event _ Rc Hn) as (st0 & h1 & h2 & Eh & Hl & R1 & Hst & Hev). rewrite <- Hcall in Hst. cbn [check_res rs_status rs_reply] in *.
  pose proof (answers_latest Hclk _ R1 Hst) as A. rewrite <- Es in A. destruct A as (He & _).
  destruct (decision Hclk _ R1 He Hst) as [(_ & Es' & _)|(_ & ev1 & ev2 & r1 & b0 & now & M1 & S1 & M2 & D2 & D & Hd)]; [congruence|].
  destruct (flush_interval_in_cycle (cf_checks cf) <=? now - b0) eqn:Ei; [destruct Hd; congruence|]. apply Z.leb_gt in Ei. destruct Hd as [_ Hr].
  destruct M2 as (g1 & g2 & Eg & P2 & F2). assert (ag_hc (w_aggs w) !! length g1 = Some ev2) as Hn0. { rewrite Eh, Eg, <- app_assoc. cbn [app]. by rewrite list_lookup_middle. }
  exists t1, n, ev, (length g1), ev2, now, b0. split; [done|]. split. { rewrite <- Hl, Eg, app_length. cbn. lia. } split; [done|]. split; [done|].
  split. { destruct D as (i & Hi & ->). exists i. split; [|done]. rewrite Hev. cbn. exact Hi. }
  split; [done|]. split; [done|].
  assert (calls KCheck (w_aggs w) !! length g1 = Some (OnCheck (cv_call ev2), check_res (cv_result ev2))) as Hc2. { cbn [calls]. by rewrite list_lookup_fmap, Hn0. }
  destruct P2 as [(q' & Q1 & Q2 & Q3 & Q4)|(rp' & q' & Q1 & Q2)].
  - right. rewrite Q1 in Hc2. destruct (reach_asked_for _ _ R Hc2 eq_refl) as (t2 & c' & a' & J1 & J2 & J3 & J4). exists q', t2, c', a'. split_and!; try done. destruct (ap_request a'); cbn in J4; congruence.
  - left. rewrite Q1 in Hc2. destruct (check_justified _ R Hc2) as (t2 & m & c' & t3 & rp & b & J1 & J2 & ->). exists q', rp, t2, m, c', t3, b. split_and!; try done. rewrite Hr.
    (* the answer that was recorded last is that of the last round trip *)
    destruct M1 as (k1 & k2 & Ek & _ & K2). rewrite Eg in Ek.
    assert (ev1 = ev2) as ->.
    { destruct (Nat.lt_trichotomy (length k1) (length g1)) as [Hlt|[Heq|Hgt]].
      - exfalso. assert (ev2 ∈ k2) as Hin. { apply elem_of_list_lookup. exists (length g1 - S (length k1))%nat.
          assert ((k1 ++ ev1 :: k2) !! length g1 = Some ev2) as L by (rewrite <- Ek; by apply list_lookup_middle).
          rewrite lookup_app_r in L by lia. destruct (length g1 - length k1)%nat as [|j] eqn:Ej; [lia|]. cbn in L. by replace (length g1 - S (length k1))%nat with j by lia. }
        rewrite Forall_forall in K2. apply (K2 _ Hin). exists (check_reply rp), q'. done.
      - apply app_inj_1 in Ek as [_ Ek]; [|done]. by injection Ek as ->.
      - exfalso. assert (ev1 ∈ g2) as Hin. { apply elem_of_list_lookup. exists (length k1 - S (length g1))%nat.
          assert ((g1 ++ ev2 :: g2) !! length k1 = Some ev1) as L by (rewrite Ek; by apply list_lookup_middle).
          rewrite lookup_app_r in L by lia. destruct (length k1 - length g1)%nat as [|j] eqn:Ej; [lia|]. cbn in L. by replace (length k1 - S (length g1))%nat with j by lia. }
        rewrite Forall_forall in F2. apply (F2 _ Hin). right. by exists r1. }
    destruct S1 as (q1 & S1 & _). rewrite Q1 in S1. by injection S1 as _ <-.
Qed.
End fresh.
