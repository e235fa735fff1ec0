(** Invariants of the client, part 4: the delivery of flushed items, and the two mutexes of each aggregator. *)
From Verif Require Import Base Proto Signature OpAgg Lru Timeout Agg CheckAgg CheckAggSpec QuotaAgg QuotaAggSpec ReportAgg ReportAggSpec Client ClientSpec ClientInv ClientCalls ClientStage.
From stdpp Require Import gmap list.
Local Open Scope Z_scope.
Set Implicit Arguments.

Section flush.
Variable debug : bool.
Variable ord : hash_order.
Variable md5 : string -> string.
Variable clk : kind -> nat -> Z.
Variable cf : client_config.
Notation reach := (reach debug ord md5 clk cf).
Notation agg_step := (agg_step debug ord md5 clk cf).
Notation estep := (estep debug ord md5 clk cf).
Implicit Types (w : world) (t : nat) (i : instr) (ths : list (list instr)) (tr : list event).

Lemma ins_lookup {A} (ths : list A) t x t' st : <[t := x]> ths !! t' = Some st -> (t' = t /\ st = x) \/ (t' <> t /\ ths !! t' = Some st).
Proof. intros [(-> & -> & _)|[H1 H2]]%list_lookup_insert_Some; [by left|by right]. Qed.

(** ** The items of a call of an aggregator *)
Definition todo k n i : list (option request) :=
  match i with
  | IFlush k' n' q | IInvoke k' n' q => if bool_decide (k' = k /\ n' = n) then [Some q] else []
  | IAggReturn k' n' => if bool_decide (k' = k /\ n' = n) then [None] else []
  | _ => []
  end.
Lemma handled_snoc k n tr ev : handled k n (tr ++ [ev]) = handled k n tr ++ handled k n [ev].
Proof. unfold handled. by rewrite bind_app. Qed.
Definition delivery k n ths w : Prop :=
  match calls k (w_aggs w) !! n with
  | None => (forall t st, ths !! t = Some st -> st ≫= todo k n = []) /\ handled k n (w_trace w) = []
  | Some (_, r) => exists t st u, ths !! t = Some st /\ EAgg t k n u ∈ w_trace w /\ Forall (fun x => x.1 = t) (handled k n (w_trace w)) /\
      (forall t' st', ths !! t' = Some st' -> t' <> t -> st' ≫= todo k n = []) /\
      ((fun x => item_of x.2) <$> handled k n (w_trace w)) ++ (st ≫= todo k n) = (Some <$> rs_flushed r) ++ [None]
  end.
Lemma delivery_step k n ths w t i rest new w' : ths !! t = Some (i :: rest) -> calls k (w_aggs w') !! n = calls k (w_aggs w) !! n ->
  (exists hs, handled k n (w_trace w') = handled k n (w_trace w) ++ (pair t <$> hs) /\ (item_of <$> hs) ++ (new ≫= todo k n) = todo k n i) ->
  (forall ev, ev ∈ w_trace w -> ev ∈ w_trace w') -> delivery k n ths w -> delivery k n (<[t := new ++ rest]> ths) w'.
Proof.
  intros Ht Hc (hs & Hh & Hi) Hev. unfold delivery. rewrite Hc, Hh. assert (t < length ths)%nat as Hlt by (by eapply lookup_lt_Some).
  assert ((i :: rest) ≫= todo k n = todo k n i ++ (rest ≫= todo k n)) as Hcons by done.
  destruct (calls k (w_aggs w) !! n) as [[call r]|].
  - intros (t0 & st & u & H1 & H2 & H3 & H4 & H5). destruct (decide (t = t0)) as [<-|Ne].
    + exists t, (new ++ rest), u. assert (st = i :: rest) as -> by congruence. split; [by apply list_lookup_insert|]. split; [by apply Hev|]. split; [|split].
      * apply Forall_app. split; [done|]. apply Forall_fmap, Forall_true. done.
      * intros t' st' E Ne. rewrite list_lookup_insert_ne in E by done. by eapply H4.
      * rewrite Hcons, <- Hi in H5. rewrite <- H5, fmap_app, <- list_fmap_compose, bind_app, <- !app_assoc. done.
    + pose proof (H4 _ _ Ht Ne) as H6. rewrite Hcons in H6. apply app_nil in H6 as [H6 H7]. rewrite H6 in Hi. apply app_nil in Hi as [Hi Hn].
      apply fmap_nil_inv in Hi as ->. cbn [fmap list_fmap]. rewrite app_nil_r. exists t0, st, u. split; [by rewrite list_lookup_insert_ne|]. split; [by apply Hev|].
      split; [done|]. split; [|done]. intros t' st' [[-> ->]|[E1 E2]]%ins_lookup Ne'; [|by eapply H4]. by rewrite bind_app, Hn, H7.
  - intros [H1 H2]. pose proof (H1 _ _ Ht) as H6. rewrite Hcons in H6. apply app_nil in H6 as [H6 H7]. rewrite H6 in Hi. apply app_nil in Hi as [Hi Hn].
    apply fmap_nil_inv in Hi as ->. cbn [fmap list_fmap]. rewrite app_nil_r. split; [|done].
    intros t' st' [[-> ->]|[E1 E2]]%ins_lookup; [|by eapply H1]. by rewrite bind_app, Hn, H7.
Qed.
Lemma todo_flush k n k' n' qs : (IFlush k' n' <$> qs) ≫= todo k n = if bool_decide (k' = k /\ n' = n) then Some <$> qs else [].
Proof.
  induction qs as [|q qs IH]; [by destruct (bool_decide _)|]. rewrite fmap_cons, bind_cons, IH. cbn [todo]. by destruct (bool_decide _).
Qed.

Lemma reach_delivery ths w : reach (ths, w) -> w_crash w = None -> forall k n, delivery k n ths w.
Proof.
  refine (reach_ind' (fun ths w => w_crash w = None -> forall k n, delivery k n ths w) _ _ _ (ths := ths) (w := w)); clear ths w.
  - intros a Ha _ k n. unfold delivery. cbn [new_world w_aggs w_trace]. rewrite (proj2 (new_aggs_sequential debug _ md5 _ _ Ha)). by split.
  - intros ths w' _ IH _ Hc k n. specialize (IH Hc k n). unfold delivery in *. destruct (calls k (w_aggs w') !! n) as [[call r]|].
    + destruct IH as (t & st & u & H1 & H2 & H3 & H4 & H5). exists t, st, u. split; [by apply lookup_app_l_Some|]. split; [done|]. split; [done|]. split; [|done].
      intros t' st' [E|[_ E]]%lookup_app_Some Ne; [by eapply H4|]. by apply list_lookup_singleton_Some in E as [_ <-].
    + destruct IH as [H1 H2]. split; [|done]. intros t' st' [E|[_ E]]%lookup_app_Some; [by eapply H1|]. by apply list_lookup_singleton_Some in E as [_ <-].
  - intros ths w t i rest new w' R IH Hc Ht E Hc' k n. specialize (IH Hc k n).
    assert (forall ev, ev ∈ w_trace w -> ev ∈ w_trace w') as Hev by (intros ev H; destruct E; wsimpl; rewrite ?elem_of_app; auto).
    destruct E; try done.
    all: try (eapply delivery_step with (w := w); [done|done| |done|done]; exists []; wsimpl; rewrite ?handled_snoc; cbn [fmap list_fmap app]; split; [by rewrite !app_nil_r|reflexivity]).
    + eapply delivery_step with (w := w); [done|done| |done|done]. exists []. wsimpl. rewrite handled_snoc. split; [reflexivity|]. unfold api_code. by destruct (ap_blocking a).
    + (* the body of an aggregator call *)
      destruct (agg_step_calls _ _ _ _ _ _ _ _ H) as [Hk1 Hk2]. set (k' := call_kind call) in *. set (n' := length _) in *.
      destruct (decide (k' = k /\ n' = n)) as [[<- <-]|Ne].
      * unfold delivery in *. wsimpl. rewrite Hk1, lookup_app_r, Nat.sub_diag by done. rewrite lookup_ge_None_2 in IH by done. cbn [list_lookup]. cbn.
        destruct IH as [I1 I2]. exists t. eexists _, (fst <$> u). split; [apply list_lookup_insert; by eapply lookup_lt_Some|].
        split; [apply elem_of_app; right; by apply elem_of_list_singleton|]. rewrite handled_snoc, I2. split; [by apply Forall_nil_2|]. split.
        -- intros t' st' [[-> ->]|[E1 E2]]%ins_lookup Ne; [done|]. by eapply I1.
        -- specialize (I1 _ _ Ht). rewrite bind_cons in I1. cbn in I1. cbn. rewrite !bind_app, todo_flush. rewrite bool_decide_true by done.
           rewrite I1, app_nil_r. cbn. rewrite bool_decide_true by done. by destruct u as [[c a']|].
      * eapply delivery_step with (w := w); [done| | |done|done].
        -- wsimpl. destruct (decide (k = k')) as [->|Nk]; [|by rewrite Hk2]. rewrite Hk1. destruct (decide (n < n')%nat) as [Hlt|Hge]; [by apply lookup_app_l|].
           rewrite !lookup_ge_None_2; [done|lia|]. rewrite app_length. cbn. subst n'. destruct (decide (n = length (calls k' (w_aggs w)))); [naive_solver|]. lia.
        -- exists []. wsimpl. rewrite handled_snoc. split; [reflexivity|]. cbn [fmap list_fmap app]. rewrite bind_cons, !bind_app, todo_flush. rewrite bool_decide_false by done.
           cbn. rewrite bool_decide_false by done. by destruct u as [[c a']|].
    + eapply delivery_step with (w := w); [done|done| |done|done]. exists []. split; [by rewrite app_nil_r|]. cbn. by destruct (bool_decide _).
    + eapply delivery_step with (w := w); [done|done| |done|done]. exists (if bool_decide (k0 = k /\ n0 = n) then [Gave q] else []). wsimpl. rewrite handled_snoc. unfold handled. cbn. unfold callback_code.
      by destruct (bool_decide _), q.
    + eapply delivery_step with (w := w); [done|done| |done|done]. exists (if bool_decide (k0 = k /\ n0 = n) then [Dropped q] else []). wsimpl. rewrite handled_snoc. unfold handled. cbn.
      by destruct (bool_decide _).
    + eapply delivery_step with (w := w); [done|done| |done|done]. exists (if bool_decide (k0 = k /\ n0 = n) then [Returned] else []). wsimpl. rewrite handled_snoc. unfold handled. cbn.
      by destruct (bool_decide _).
    + eapply delivery_step with (w := w); [done|done| |done|done]. exists []. split; [by rewrite app_nil_r|]. unfold after_code. by destruct (status_eqb _ _), (ap_request a).
    + eapply delivery_step with (w := w); [done|done| |done|done]. exists []. split; [by rewrite app_nil_r|]. destruct f; try done; cbn; by destruct (status_eqb _ _).
Qed.
(** When the call returns all its items have been dealt with. *)
Lemma returned_delivered ths w t k n : reach (ths, w) -> w_crash w = None -> EAggReturn t k n ∈ w_trace w ->
  exists call r u, calls k (w_aggs w) !! n = Some (call, r) /\ EAgg t k n u ∈ w_trace w /\
    exists gs, handled k n (w_trace w) = (pair t <$> gs) ++ [(t, Returned)] /\ (item_of <$> gs) = Some <$> rs_flushed r.
Proof.
  intros R Hc Hin. pose proof (reach_delivery R Hc k n) as D. unfold delivery in D.
  assert ((t, Returned) ∈ handled k n (w_trace w)) as Hh.
  { apply elem_of_list_bind. eexists. split; [|done]. cbn. rewrite bool_decide_true by done. by apply elem_of_list_singleton. }
  destruct (calls k (w_aggs w) !! n) as [[call r]|]; [|destruct D as [_ D]; rewrite D in Hh; by apply elem_of_nil in Hh].
  destruct D as (t0 & st & u & H1 & H2 & H3 & H4 & H5). pose proof (proj1 (Forall_forall _ _) H3 _ Hh) as Et. cbn in Et. subst t0.
  exists call, r, u. split; [done|]. split; [done|].
  destruct (handled k n (w_trace w)) as [|x l _] using rev_ind; [by apply elem_of_nil in Hh|].
  remember (st ≫= todo k n) as ls eqn:E. clear E. destruct ls as [|y ls _] using rev_ind.
  - rewrite app_nil_r, fmap_app in H5. apply app_inj_tail in H5 as [H5 H6]. apply Forall_app in H3 as [H3 H7]. apply (proj1 (Forall_singleton _ _)) in H7.
    destruct x as [t' f]. cbn [fst snd] in *. subst t'. destruct f; try done. exists (l.*2). split.
    + f_equal. clear -H3. induction l as [|[a b] l IH]; [done|]. apply Forall_cons in H3 as [H3 H4]. cbn in *. subst a. f_equal. by apply IH.
    + by rewrite <- list_fmap_compose.
  - exfalso. rewrite app_assoc in H5. apply app_inj_tail in H5 as [H5 _].
    assert (None ∈ Some <$> rs_flushed r) as HN; [|apply elem_of_list_fmap in HN as (? & ? & ?); done].
    rewrite <- H5. apply elem_of_app. left. apply elem_of_list_fmap. by exists (t, Returned).
Qed.
End flush.
