(** Invariants of the client, part 11: the answers of the server are recorded before the user is told. *)
From Verif Require Import Base Proto Signature OpAgg Lru Timeout Agg CheckAgg CheckAggSpec QuotaAgg QuotaAggSpec ReportAgg ReportAggSpec Client ClientSpec ClientInv ClientCalls ClientStage ClientFlush ClientLocks ClientLive ClientEnd ClientFacts.
From stdpp Require Import gmap list.
Local Open Scope Z_scope.
Set Implicit Arguments.

Section cache.
Variable debug : bool.
Variable ord : hash_order.
Variable md5 : string -> string.
Variable clk : kind -> nat -> Z.
Variable cf : client_config.
Notation step := (step debug ord md5 clk cf).
Notation reach := (reach debug ord md5 clk cf).
Notation agg_step := (agg_step debug ord md5 clk cf).
Notation estep := (estep debug ord md5 clk cf).
Implicit Types (w : world) (t : nat) (i : instr) (ths : list (list instr)) (tr : list event).

(** The calls that record an answer are only at the top of a stack. *)
Definition records i : bool := match i with IAgg (OnCheck (CCacheResponse _ _)) _ | IBody (OnCheck (CCacheResponse _ _)) _ | IAgg (OnQuota (QResponse _ _)) _ | IBody (OnQuota (QResponse _ _)) _ => true | _ => false end.
Definition no_record (_ : instr) (l : list instr) : Prop := forallb (fun i => negb (records i)) l = true.
Lemma below_no_record new rest : forallb (fun i => negb (records i)) rest = true -> forallb (fun i => negb (records i)) (tail new) = true -> below no_record rest -> below no_record (new ++ rest).
Proof.
  intros Hr. destruct new as [|i new]; [done|]. cbn [tail]. revert i. induction new as [|j new IH]; intros i Hn B; [by split|]. cbn in Hn. apply andb_prop in Hn as [H1 H2]. split.
  - unfold no_record. cbn [app forallb]. rewrite H1. rewrite forallb_app, H2, Hr. done.
  - by apply IH.
Qed.
Lemma reach_no_record ths w : reach (ths, w) -> belows no_record ths.
Proof.
  revert ths w. refine (reach_ind' (fun ths w => belows no_record ths) _ _ _).
  - by intros a _ t st H.
  - intros ths w _ IH _. by apply belows_spawn.
  - intros ths w t i rest new w' R IH Hc Ht E. eapply belows_step; [exact IH|exact Ht|]. intros H1 H2. apply below_no_record; [exact H1| |done].
    destruct E; try done.
    + unfold api_code. by destruct (ap_blocking a).
    + cbn [app tail]. rewrite forallb_app. apply andb_true_intro. split; [|by destruct u as [[]|]]. apply forallb_forall. intros j Hj%elem_of_list_In. apply elem_of_list_fmap in Hj as (q & -> & _). done.
    + by destruct q.
    + unfold after_code. by destruct (status_eqb _ _), (ap_request a).
    + destruct f; cbn; try done; by destruct (status_eqb _ _).
Qed.
Definition recorded w (call : agg_call) : Prop := exists n r, calls (call_kind call) (w_aggs w) !! n = Some (call, r).
Definition recording_now (call : agg_call) (st : list instr) : Prop := exists u, IAgg call u ∈ st \/ IBody call u ∈ st.
Definition kept w st : Prop := forall c s r t m q call, IDone c s r ∈ st -> ETransport t m (FromCall c) q ∈ w_trace w -> recording q s r = Some call -> recorded w call \/ recording_now call st.
Lemma recorded_step t w i new w' call : estep t w i new w' -> recorded w call -> recorded w' call.
Proof.
  intros E (n & r & H). exists n, r. destruct E; wsimpl; try done. eapply prefix_lookup; [exact H|]. by eapply calls_extend.
Qed.
Lemma new_transport t w i new w' t1 m c q : estep t w i new w' -> ETransport t1 m (FromCall c) q ∈ w_trace w' -> ETransport t1 m (FromCall c) q ∈ w_trace w \/ exists f, i = ITransport (FromCall c) q f.
Proof.
  intros E. destruct E; wsimpl; try (by left); rewrite !elem_of_app, !elem_of_list_singleton; intros Hin; destruct_or? Hin; try (by left); try done; injection Hin as E1 E2 E3 E4; subst; eauto.
Qed.
Lemma reach_kept ths w : reach (ths, w) -> forall t st, ths !! t = Some st -> kept w st.
Proof.
  revert ths w. refine (reach_ind' (fun ths w => forall t st, ths !! t = Some st -> kept w st) _ _ _).
  - by intros a _ t st H.
  - intros ths w _ IH _ t st [H|[_ H]]%lookup_app_Some; [by eapply IH|]. apply list_lookup_singleton_Some in H as [_ <-]. intros c s r t' m q call H. in_new H.
  - intros ths w t i rest new w' R IH Hc Ht E t1 st H1 c s r t2 m q call Hd Hs Hr.
    assert (forall t1 st, <[t := rest]> ths !! t1 = Some st -> IDone c s r ∈ st -> ETransport t2 m (FromCall c) q ∈ w_trace w) as Hold.
    { intros t3 st3 H2 H3. destruct (new_transport E Hs) as [|(f & ->)]; [done|]. exfalso.
      destruct (st_each (proj1 (reach_staged R)) _ Ht (elem_of_list_here _ _)) as (a & n & r' & _ & _ & _ & Ef).
      assert (c ∈ tok (ITransport (FromCall c) q f)) as Hk. { cbn. rewrite Ef, call_in_on_done. apply elem_of_list_here. }
      destruct (others_tok _ R Hc Ht Hk) as (O & _). eapply O; [exact H2|exact H3|]. apply elem_of_list_here. }
    apply ins_lookup in H1 as [[-> ->]|[Ne H1]].
    2: { destruct (IH _ _ H1 c s r t2 m q call) as [H|H]; [done| |done|left; by eapply recorded_step|by right].
         eapply Hold; [|exact Hd]. rewrite list_lookup_insert_ne; [exact H1|done]. }
    apply elem_of_app in Hd as [Hd|Hd].
    + assert (forall l, story c (w_trace w) = l -> w_trace w' = w_trace w -> ETransport t2 m (FromCall c) q ∈ l) as Hst.
      { intros l <- Ew. rewrite Ew in Hs. apply (proj1 (@story_elem c (w_trace w) (ETransport t2 m (FromCall c) q) (Nat.eqb_refl c))). done. }
      pose proof (st_each (proj1 (reach_staged R)) _ Ht (elem_of_list_here _ _)) as St. destruct E; try (by in_new Hd).
      * apply elem_of_list_singleton in Hd. injection Hd as -> -> ->. cbn in St. specialize (Hst _ St eq_refl). by apply elem_of_list_singleton in Hst.
      * exfalso. rewrite !elem_of_app, elem_of_list_singleton, elem_of_list_fmap in Hd. destruct Hd as [?|[(q' & ? & _)|[Hd|Hd]]]; [done|done|in_new Hd|destruct u as [[]|]; in_new Hd].
      * cbn in St. destruct St as (_ & _ & St). assert (c0 = c) as ->. { unfold after_code in Hd. destruct (status_eqb _ _), (ap_request a); cbn in Hd; rewrite ?elem_of_cons, ?elem_of_nil in Hd; destruct_or? Hd; try done; by injection Hd. }
        specialize (Hst _ St eq_refl). rewrite !elem_of_cons, elem_of_nil in Hst. by destruct_or? Hst.
      * destruct St as [HO _]. assert (c ∈ call_in f) as Hcf. { destruct f; in_new Hd; injection Hd as -> _ _; apply elem_of_list_here. }
        destruct HO as [(t3 & c' & a & n' & r' & -> & _ & _ & _ & _ & St)|(t3 & k & n' & q' & -> & _)]; [|by destruct q'; apply elem_of_nil in Hcf].
        rewrite call_in_on_done in Hcf. apply elem_of_list_singleton in Hcf as ->. specialize (Hst _ St eq_refl). rewrite !elem_of_cons, elem_of_nil in Hst. destruct_or? Hst; try done.
        injection Hst as _ _ ->. right. destruct (ap_request a) as [q'|q'|q']; cbn in Hr, Hd |- *.
        -- assert (s0 = s /\ r0 = r) as [-> ->]. { destruct (status_eqb s0 SOk); cbn in Hd; rewrite ?elem_of_cons, elem_of_nil in Hd; destruct_or? Hd; try done; by injection Hd as -> ->. }
           destruct (status_eqb s SOk); [|done]. injection Hr as <-. exists None. left. apply elem_of_list_here.
        -- assert (s0 = s /\ r0 = r) as [-> ->]. { rewrite ?elem_of_cons, elem_of_nil in Hd; destruct_or? Hd; try done; by injection Hd as -> ->. }
           injection Hr as <-. exists None. left. apply elem_of_list_here.
        -- done.
    + destruct (IH _ _ Ht c s r t2 m q call) as [H|(u & H)].
      * by apply elem_of_list_further.
      * eapply Hold; [|exact Hd]. apply list_lookup_insert. by eapply lookup_lt_Some.
      * done.
      * left. by eapply recorded_step.
      * assert (i = IAgg call u \/ i = IBody call u \/ IAgg call u ∈ rest \/ IBody call u ∈ rest) as Hi. { rewrite !elem_of_cons in H. naive_solver. }
        destruct Hi as [->|[->|Hi]].
        -- inversion E; subst; [done|]. right. exists u. right. apply elem_of_list_here.
        -- inversion E; subst; [done|]. left. destruct (agg_step_calls _ _ _ _ _ _ _ _ H4) as [C1 _]. eexists _, _. wsimpl. rewrite C1. rewrite lookup_app_r, Nat.sub_diag by done. done.
        -- right. exists u. rewrite !elem_of_app. naive_solver.
Qed.
Lemma recording_records q s r call u : recording q s r = Some call -> records (IAgg call u) = true /\ records (IBody call u) = true.
Proof. destruct q; cbn; [|by intros [= <-]|done]. destruct (status_eqb _ _); [|done]. by intros [= <-]. Qed.
Lemma told_recorded t ch ths w ths' w' t' c s r t1 m q call : reach (ths, w) -> step t ch (ths, w) = Some (ths', w') -> w_trace w' = w_trace w ++ [EDone t' c s r] ->
  ETransport t1 m (FromCall c) q ∈ w_trace w -> recording q s r = Some call -> recorded w call.
Proof.
  intros R E Htr Hs Hr. eapply done_step in E; [|exact Htr]. destruct E as (-> & rest & Ht).
  destruct (reach_kept R _ Ht (elem_of_list_here _ _) Hs Hr) as [|(u & H)]; [done|]. exfalso. destruct (recording_records _ _ _ u Hr) as [H1 H2].
  destruct (reach_no_record R _ Ht) as [B _]. unfold no_record in B. rewrite forallb_forall in B.
  rewrite !elem_of_cons in H. destruct H as [[?|H]|[?|H]]; try done; apply elem_of_list_In, B in H; [by rewrite H1 in H|by rewrite H2 in H].
Qed.
End cache.
