(** Invariants of the client, part 3: where each call comes from and what has happened to it. *)
From Verif Require Import Base Proto Signature OpAgg Lru Timeout Agg CheckAgg CheckAggSpec QuotaAgg QuotaAggSpec ReportAgg ReportAggSpec Client ClientSpec ClientInv ClientCalls.
From stdpp Require Import gmap list.
Local Open Scope Z_scope.
Set Implicit Arguments.

Section stage.
Variable debug : bool.
Variable ord : hash_order.
Variable md5 : string -> string.
Variable clk : kind -> nat -> Z.
Variable cf : client_config.
Notation reach := (reach debug ord md5 clk cf).
Notation agg_step := (agg_step debug ord md5 clk cf).
Notation estep := (estep debug ord md5 clk cf).
Notation settled := (settled cf).
Implicit Types (w : world) (t : nat) (i : instr) (ths : list (list instr)) (tr : list event).

(** Something holds for each instruction on the stacks. *)
Definition each (P : nat -> instr -> Prop) ths : Prop := forall t st i, ths !! t = Some st -> i ∈ st -> P t i.
Lemma each_step (P P' : nat -> instr -> Prop) ths t i rest new : each P ths -> ths !! t = Some (i :: rest) ->
  (forall t' st j, <[t := rest]> ths !! t' = Some st -> j ∈ st -> P t' j -> P' t' j) -> (forall j, j ∈ new -> P' t j) ->
  each P' (<[t := new ++ rest]> ths).
Proof.
  intros H Ht H1 H2 t' st j E Hj. destruct (decide (t' = t)) as [->|Ne].
  - rewrite list_lookup_insert in E by (by eapply lookup_lt_Some). injection E as <-. apply elem_of_app in Hj as [Hj|Hj]; [by apply H2|].
    eapply H1; [|exact Hj|]; [rewrite list_lookup_insert; [done|by eapply lookup_lt_Some]|]. eapply H; [done|]. by apply elem_of_list_further.
  - rewrite list_lookup_insert_ne in E by done. eapply H1; [|exact Hj|]; [by rewrite list_lookup_insert_ne|]. by eapply H.
Qed.
Lemma each_spawn (P : nat -> instr -> Prop) ths : each P ths -> (forall t, P t IUser) -> each P (ths ++ [[IUser]]).
Proof.
  intros H HU t st j E Hj. apply lookup_app_Some in E as [E|[_ E]]; [by eapply H|]. apply list_lookup_singleton_Some in E as [_ <-].
  apply elem_of_list_singleton in Hj as ->. apply HU.
Qed.
(** No other instruction has the token of the one that is executed. *)
Lemma others_tok ths w t i rest c : reach (ths, w) -> w_crash w = None -> ths !! t = Some (i :: rest) -> c ∈ tok i ->
  (forall t' st j, <[t := rest]> ths !! t' = Some st -> j ∈ st -> c ∉ tok j) /\ (forall p, p ∈ w_pending w -> c ∉ ptok p) /\ c ∉ done (w_trace w) /\ c ∈ started (w_trace w).
Proof.
  intros R Hc Ht Hin. pose proof (one_place R Hc) as P. pose proof (started_NoDup R) as N. pose proof (all_step tok _ _ [] Ht) as P2. cbn in P2. rewrite app_nil_r in P2.
  rewrite <- P in N. rewrite <- P2 in N. rewrite !NoDup_app in N. destruct N as ((N1 & N2 & N3) & N4 & N5 & N6 & N7).
  split; [|split; [|split]].
  - intros t' st j H1 H2 H3. apply (N2 c); [|done]. apply all_elem. eauto 6.
  - intros p H1 H2. apply (N4 c); [set_solver|]. apply elem_of_app. left. apply elem_of_list_bind. eauto.
  - intros H1. apply (N4 c); set_solver.
  - rewrite <- P, <- P2. set_solver.
Qed.

Section at_world.
Variable w : world.
(** The aggregator was asked on behalf of the call and its answer is [r]. *)
Definition asked t c a n r : Prop :=
  has_transport cf a = true /\ calls (kind_of (ap_request a)) (w_aggs w) !! n = Some (agg_call_of (ap_request a), r) /\
  story c (w_trace w) = [EStart t c a; EAgg t (kind_of (ap_request a)) n (Some c)].
Definition origin_of (i : nat) (f : completion) : Prop :=
  (exists t c a n r, f = on_done c (ap_request a) /\ rs_status r = SNotFound /\
     has_transport cf a = true /\ calls (kind_of (ap_request a)) (w_aggs w) !! n = Some (agg_call_of (ap_request a), r) /\
     ETransport t i (FromCall c) (ap_request a) ∈ w_trace w /\
     story c (w_trace w) = [EStart t c a; EAgg t (kind_of (ap_request a)) n (Some c); ETransport t i (FromCall c) (ap_request a)]) \/
  (exists t k n q, f = flush_done q /\ ETransport t i (FromFlush k n) q ∈ w_trace w).
Definition stage t i : Prop :=
  match i with
  | IGate c a => story c (w_trace w) = [EStart t c a]
  | IAgg call (Some (c, a)) | IBody call (Some (c, a)) => call = agg_call_of (ap_request a) /\ has_transport cf a = true /\ story c (w_trace w) = [EStart t c a]
  | IAgg call None | IBody call None => justified call (w_trace w)
  | IAfter c a n r => asked t c a n r
  | ITransport (FromCall c) q f => exists a n r, asked t c a n r /\ rs_status r = SNotFound /\ q = ap_request a /\ f = on_done c q
  | ITransport (FromFlush k n) q f => f = flush_done q
  | ICompleted i f s r => origin_of i f /\ exists t' b, ECompleted t' i s r b ∈ w_trace w
  | IDone c s r => exists a, settled w c a s r (story c (w_trace w))
  | _ => True
  end.
Record staged ths : Prop := {
  st_each : each stage ths;
  st_pending : forall p, p ∈ w_pending w -> origin_of p.1 p.2;
  st_done : forall t c s r, EDone t c s r ∈ w_trace w -> exists a l, settled w c a s r l /\ story c (w_trace w) = l ++ [EDone t c s r];
  st_calls : forall k n call r, calls k (w_aggs w) !! n = Some (call, r) -> justified call (w_trace w) }.
End at_world.

(** What a later state keeps. *)
Definition extends w w' : Prop := (forall ev, ev ∈ w_trace w -> ev ∈ w_trace w') /\ forall k, calls k (w_aggs w) `prefix_of` calls k (w_aggs w').
Definition same_story c w w' : Prop := story c (w_trace w') = story c (w_trace w).

Lemma justified_mono call tr tr' : (forall ev, ev ∈ tr -> ev ∈ tr') -> justified call tr -> justified call tr'.
Proof. intros H. destruct call as [[]|[]|[]]; cbn; intros; destruct_and?; naive_solver. Qed.
Lemma calls_mono w w' k n x : extends w w' -> calls k (w_aggs w) !! n = Some x -> calls k (w_aggs w') !! n = Some x.
Proof. intros [_ H] E. by eapply prefix_lookup. Qed.
Lemma settled_mono w w' c a s r l : extends w w' -> settled w c a s r l -> settled w' c a s r l.
Proof.
  intros X H. destruct H; [by constructor| |].
  - econstructor; [done|by eapply calls_mono|done].
  - econstructor; [done|by eapply calls_mono|done|]. by apply X.
Qed.
Lemma asked_mono w w' t c a n r : extends w w' -> same_story c w w' -> asked w t c a n r -> asked w' t c a n r.
Proof. intros X S (H1 & H2 & H3). split; [done|]. split; [by eapply calls_mono|]. by rewrite S. Qed.
Lemma origin_mono w w' m f : extends w w' -> (forall c, c ∈ call_in f -> same_story c w w') -> origin_of w m f -> origin_of w' m f.
Proof.
  intros X S [(t & c & a & n & r & -> & H1 & H2 & H3 & H4 & H5)|(t & k & n & q & -> & H)].
  - left. exists t, c, a, n, r. split; [done|]. split; [done|]. split; [done|]. split; [by eapply calls_mono|]. split; [by apply X|].
    rewrite (S c); [done|]. destruct (ap_request a); cbn; set_solver.
  - right. exists t, k, n, q. split; [done|]. by apply X.
Qed.
Lemma stage_mono w w' t i : extends w w' -> (forall c, c ∈ tok i -> same_story c w w') -> stage w t i -> stage w' t i.
Proof.
  intros X S. destruct i as [|o c n|c a|call [[c a]|]|call [[c a]|]|k|k n q|k n q|k|k n|c a n r|[c|k n] q f|n f s r|c s r|c|c|k| |]; cbn [stage tok] in *; try done.
  all: try (rewrite (S c) by set_solver; done).
  all: try (by intros Hj; eapply justified_mono; [apply X|exact Hj]).
  - apply asked_mono; [done|]. apply S. set_solver.
  - intros (a & n & r & H1 & H2 & -> & ->). exists a, n, r. split; [|done]. eapply asked_mono; [done| |done]. apply S. destruct (ap_request a); cbn; set_solver.
  - intros [H1 (t' & b & H2)]. split; [by eapply origin_mono|]. exists t', b. by apply X.
  - intros (a & H). exists a. rewrite (S c) by set_solver. by eapply settled_mono.
Qed.

Lemma staged_step w w' ths t i rest new : staged w ths -> ths !! t = Some (i :: rest) -> extends w w' ->
  (forall t' st j c, <[t := rest]> ths !! t' = Some st -> j ∈ st -> c ∈ tok j -> same_story c w w') ->
  (forall j, j ∈ new -> stage w' t j) ->
  (forall p, p ∈ w_pending w' -> (p ∈ w_pending w /\ forall c, c ∈ ptok p -> same_story c w w') \/ origin_of w' p.1 p.2) ->
  (forall t c s r, EDone t c s r ∈ w_trace w' -> (EDone t c s r ∈ w_trace w /\ same_story c w w') \/ exists a l, settled w' c a s r l /\ story c (w_trace w') = l ++ [EDone t c s r]) ->
  (forall k n call r, calls k (w_aggs w') !! n = Some (call, r) -> calls k (w_aggs w) !! n = Some (call, r) \/ justified call (w_trace w')) ->
  staged w' (<[t := new ++ rest]> ths).
Proof.
  intros [S1 S2 S3 S4] Ht X HO HN HP HD HC. constructor.
  - eapply each_step; [exact S1|done| |done]. intros t' st j H1 H2. apply stage_mono; [done|]. intros c Hc. by eapply HO.
  - intros p Hp. destruct (HP p Hp) as [[H1 H2]|]; [|done]. eapply origin_mono; [done|done|]. by apply S2.
  - intros t' c s r H. destruct (HD _ _ _ _ H) as [[H1 H2]|]; [|done]. destruct (S3 _ _ _ _ H1) as (a & l & H3 & H4). exists a, l. split; [by eapply settled_mono|]. by rewrite H2.
  - intros k n call r H. destruct (HC _ _ _ _ H) as [H1|]; [|done]. eapply justified_mono; [apply X|]. by eapply S4.
Qed.
Lemma staged_quiet w w' ths t i rest new : staged w ths -> ths !! t = Some (i :: rest) -> w_aggs w' = w_aggs w ->
  (w_trace w' = w_trace w \/ exists ev, w_trace w' = w_trace w ++ [ev] /\ forall c, concerns c ev = false) ->
  (forall p, p ∈ w_pending w' -> p ∈ w_pending w) -> (forall j, j ∈ new -> stage w' t j) -> staged w' (<[t := new ++ rest]> ths).
Proof.
  intros S Ht Ha Htr Hp HN. assert (forall c, same_story c w w') as Hs.
  { intros c. unfold same_story. destruct Htr as [->|(ev & -> & H)]; [done|]. by rewrite story_snoc, H, app_nil_r. }
  eapply staged_step; [done|done| |by eauto|done|by eauto| |].
  - split; [|by rewrite Ha]. intros ev. destruct Htr as [->|(ev' & -> & H)]; [done|]. rewrite elem_of_app. auto.
  - intros t' c s r H. left. split; [|done]. destruct Htr as [Htr|(ev' & Htr & H')]; rewrite Htr in H; [done|].
    apply elem_of_app in H as [H|H%elem_of_list_singleton]; [done|]. subst ev'. specialize (H' c). cbn in H'. by rewrite Nat.eqb_refl in H'.
  - rewrite Ha. auto.
Qed.

Lemma status_eqb_eq a b : status_eqb a b = true -> a = b.
Proof. unfold status_eqb. destruct a, b; try done. by intros ->%Z.eqb_eq. Qed.
Definition fresh w : Prop := forall c, c ∉ started (w_trace w) -> story c (w_trace w) = [].
Lemma call_in_on_done c q : call_in (on_done c q) = [c].
Proof. by destruct q. Qed.

Lemma staged_call w ths t rest a : reach (ths, w) -> w_crash w = None -> staged w ths -> fresh w -> ths !! t = Some (IUser :: rest) ->
  staged (log (EStart t (w_calls w) a) (set_open (w_calls w :: w_open w) (set_calls (S (w_calls w)) w))) (<[t := (api_code (w_calls w) a ++ [IUser]) ++ rest]> ths).
Proof.
  intros R Hc S F Ht. pose proof (started_seq R) as Hq. pose proof (one_place R Hc) as Hp.
  set (w' := log _ _). assert (forall c, c ∈ started (w_trace w) -> same_story c w w') as Hs.
  { intros c H. unfold same_story. cbn. rewrite story_snoc. cbn. destruct (Nat.eqb_spec (w_calls w) c) as [E|]; [|by rewrite app_nil_r].
    rewrite Hq, elem_of_seq in H. lia. }
  eapply staged_step; [done|done| | | | | |].
  - split; [|done]. intros ev. cbn. rewrite elem_of_app. auto.
  - intros t' st j c H1 H2 H3. apply Hs. rewrite <- Hp, !elem_of_app. left. pose proof (all_step tok _ _ [] Ht) as P2. cbn in P2. rewrite !app_nil_r in P2.
    rewrite <- P2. apply all_elem. eauto 6.
  - intros j. unfold api_code. rewrite !elem_of_app. intros [[H|[H|H]]|H].
    + apply elem_of_cons in H as [->|[->|H]%elem_of_cons]; [done| |by apply elem_of_nil in H]. cbn. rewrite story_snoc, F.
      * cbn. by rewrite Nat.eqb_refl.
      * rewrite Hq, elem_of_seq. lia.
    + destruct (ap_blocking a); [|by apply elem_of_nil in H]. apply elem_of_list_singleton in H as ->. done.
    + apply elem_of_list_singleton in H as ->. done.
    + apply elem_of_list_singleton in H as ->. done.
  - intros p H. left. split; [done|]. intros c H2. apply Hs. rewrite <- Hp, !elem_of_app. right. left. apply elem_of_list_bind. eauto.
  - intros t' c s r. cbn. rewrite elem_of_app. intros [H|H%elem_of_list_singleton]; [|done]. left. split; [done|]. apply Hs. rewrite <- Hp, !elem_of_app. right. right.
    unfold done. apply elem_of_list_bind. eexists. split; [|done]. set_solver.
  - auto.
Qed.
(** A step that logs an event of the call whose token is executed. *)
Lemma staged_own w w' ths t i rest new c : reach (ths, w) -> w_crash w = None -> staged w ths -> ths !! t = Some (i :: rest) -> c ∈ tok i -> extends w w' ->
  (forall c', c' <> c -> same_story c' w w') -> (forall j, j ∈ new -> stage w' t j) ->
  (forall p, p ∈ w_pending w' -> p ∈ w_pending w \/ origin_of w' p.1 p.2) ->
  (forall t c s r, EDone t c s r ∈ w_trace w' -> EDone t c s r ∈ w_trace w \/ exists a l, settled w' c a s r l /\ story c (w_trace w') = l ++ [EDone t c s r]) ->
  (forall k n call r, calls k (w_aggs w') !! n = Some (call, r) -> calls k (w_aggs w) !! n = Some (call, r) \/ justified call (w_trace w')) ->
  staged w' (<[t := new ++ rest]> ths).
Proof.
  intros R Hc S Ht Hin X Hs HN HP HD HC. destruct (others_tok _ R Hc Ht Hin) as (O1 & O2 & O3 & O4). eapply staged_step; [done|done|done| |done| | |done].
  - intros t' st j c' H1 H2 H3. apply Hs. intros ->. by eapply O1.
  - intros p H. destruct (HP p H) as [H1|]; [left|by right]. split; [done|]. intros c' H2. apply Hs. intros ->. by eapply O2.
  - intros t' c' s r H. destruct (HD _ _ _ _ H) as [H1|]; [left|by right]. split; [done|]. apply Hs. intros ->. apply O3. apply elem_of_list_bind. eexists. split; [|done]. set_solver.
Qed.
Lemma calls_extend fuel call a a' r : agg_step fuel call a = Ok (a', r) -> forall k, calls k a `prefix_of` calls k a'.
Proof.
  intros E k. destruct (agg_step_calls _ _ _ _ _ _ _ _ E) as [H1 H2]. destruct (decide (k = call_kind call)) as [->|Ne]; [rewrite H1; by eexists|by rewrite H2].
Qed.
Lemma calls_new fuel call a a' r : agg_step fuel call a = Ok (a', r) -> forall k n call' r', calls k a' !! n = Some (call', r') ->
  calls k a !! n = Some (call', r') \/ (call' = call /\ r' = r).
Proof.
  intros E k n call' r'. destruct (agg_step_calls _ _ _ _ _ _ _ _ E) as [H1 H2]. destruct (decide (k = call_kind call)) as [->|Ne]; [rewrite H1|rewrite H2; auto].
  intros [H|[_ H]]%lookup_app_Some; [by left|]. apply list_lookup_singleton_Some in H as [_ [= <- <-]]. by right.
Qed.
Lemma elem_log ev' ev w : ev' ∈ w_trace (log ev w) <-> ev' ∈ w_trace w \/ ev' = ev.
Proof. cbn. by rewrite elem_of_app, elem_of_list_singleton. Qed.
Lemma story_start c t a tr l : story c tr = EStart t c a :: l -> EStart t c a ∈ tr.
Proof.
  intros E. assert (EStart t c a ∈ story c tr) as H by (rewrite E; set_solver). apply elem_of_list_bind in H as (ev & H1 & H2).
  destruct (concerns c ev); [|by apply elem_of_nil in H1]. by apply elem_of_list_singleton in H1 as ->.
Qed.
Lemma justified_call a t c tr : EStart t c a ∈ tr -> justified (agg_call_of (ap_request a)) tr.
Proof. intros H. destruct (ap_request a) eqn:E; cbn; eauto. Qed.
Lemma kind_agg_call q : call_kind (agg_call_of q) = kind_of q. Proof. by destruct q. Qed.

Lemma staged_body w ths t rest call u fuel a r : reach (ths, w) -> w_crash w = None -> staged w ths -> ths !! t = Some (IBody call u :: rest) ->
  agg_step fuel call (w_aggs w) = Ok (a, r) ->
  staged (log (EAgg t (call_kind call) (length (calls (call_kind call) (w_aggs w))) (fst <$> u)) (set_aggs a w))
    (<[t := ([IUnlock (call_kind call)] ++ (IFlush (call_kind call) (length (calls (call_kind call) (w_aggs w))) <$> rs_flushed r) ++
       [IAggReturn (call_kind call) (length (calls (call_kind call) (w_aggs w)))] ++
       (match u with Some (c, a) => [IAfter c a (length (calls (call_kind call) (w_aggs w))) r] | None => [] end)) ++ rest]> ths).
Proof.
  intros R Hc S Ht E. set (w' := log _ _). set (k := call_kind call) in *. set (n := length _) in *.
  assert (extends w w') as X. { split; [intros ev H; apply elem_log; by left|]. by eapply calls_extend. }
  pose proof (st_each S _ Ht (elem_of_list_here _ _)) as St.
  assert (justified call (w_trace w')) as J.
  { eapply justified_mono; [apply X|]. destruct u as [[c a0]|]; [|done]. destruct St as (-> & H1 & H2). eapply justified_call. by eapply story_start. }
  assert (forall j, j ∈ [IUnlock k] ++ (IFlush k n <$> rs_flushed r) ++ [IAggReturn k n] ++ (match u with Some (c, a0) => [IAfter c a0 n r] | None => [] end) ->
    stage w' t j) as HN.
  { intros j. rewrite !elem_of_app. intros [H|[H|[H|H]]].
    - by apply elem_of_list_singleton in H as ->.
    - apply elem_of_list_fmap in H as (q & -> & _). done.
    - by apply elem_of_list_singleton in H as ->.
    - destruct u as [[c a0]|]; [|by apply elem_of_nil in H]. apply elem_of_list_singleton in H as ->. destruct St as (Ec & H1 & H2).
      split; [done|]. subst k. rewrite <- kind_agg_call, <- Ec. split.
      + cbn. rewrite (proj1 (agg_step_calls _ _ _ _ _ _ _ _ E)), lookup_app_r, Nat.sub_diag by done. done.
      + cbn. rewrite story_snoc, H2. cbn. by rewrite Nat.eqb_refl. }
  assert (forall k' n' call' r', calls k' (w_aggs w') !! n' = Some (call', r') -> calls k' (w_aggs w) !! n' = Some (call', r') \/ justified call' (w_trace w')) as HC.
  { intros k' n' call' r' H. destruct (calls_new _ _ _ E _ _ H) as [H1|[-> ->]]; [by left|by right]. }
  destruct u as [[c a0]|].
  - eapply staged_own with (c := c); [done|done|done|done|cbn; set_solver|done| |done| | |done].
    + intros c' Ne. unfold same_story. cbn. rewrite story_snoc. cbn. destruct (Nat.eqb_spec c c'); [done|by rewrite app_nil_r].
    + auto.
    + intros t' c' s r' [H|H]%elem_log; [by left|done].
  - assert (forall c, same_story c w w') as Hs. { intros c. unfold same_story. cbn. rewrite story_snoc. cbn. by rewrite app_nil_r. }
    eapply staged_step; [done|done|done|by auto|done|by auto| |done].
    intros t' c' s r' [H|H]%elem_log; [by left|done].
Qed.

(** The transport is called. *)
Lemma staged_transport w w' ths t rest new o q f : reach (ths, w) -> w_crash w = None -> staged w ths -> ths !! t = Some (ITransport o q f :: rest) ->
  w_aggs w' = w_aggs w -> (w_trace w' = w_trace w ++ [ETransport t (w_sends w) o q] \/ exists s r, w_trace w' = (w_trace w ++ [ETransport t (w_sends w) o q]) ++ [ECompleted t (w_sends w) s r true]) ->
  (origin_of w' (w_sends w) f -> forall j, j ∈ new -> stage w' t j) ->
  (forall p, p ∈ w_pending w' -> p ∈ w_pending w \/ p = (w_sends w, f)) -> staged w' (<[t := new ++ rest]> ths).
Proof.
  intros R Hc S Ht Ha Htr HN HP.
  assert (extends w w') as X.
  { split; [|by rewrite Ha]. intros ev H. destruct Htr as [->|(s & r & ->)]; rewrite !elem_of_app; auto. }
  assert (ETransport t (w_sends w) o q ∈ w_trace w') as Hev.
  { destruct Htr as [->|(s & r & ->)]; rewrite !elem_of_app, !elem_of_list_singleton; auto. }
  assert (forall c, story c (w_trace w') = story c (w_trace w) ++ if concerns c (ETransport t (w_sends w) o q) then [ETransport t (w_sends w) o q] else []) as Hs.
  { intros c. destruct Htr as [->|(s & r & ->)]; rewrite !story_snoc; [done|]. by cbn [concerns]; rewrite app_nil_r. }
  assert (forall t c s r, EDone t c s r ∈ w_trace w' -> EDone t c s r ∈ w_trace w) as HD.
  { intros t' c s r. destruct Htr as [->|(s' & r' & ->)]; rewrite !elem_of_app, !elem_of_list_singleton; naive_solver. }
  pose proof (st_each S _ Ht (elem_of_list_here _ _)) as St. destruct o as [c|k n].
  - destruct St as (a & n & r & (A1 & A2 & A3) & H2 & -> & ->).
    assert (origin_of w' (w_sends w) (on_done c (ap_request a))) as HO.
    { left. exists t, c, a, n, r. split; [done|]. split; [done|]. split; [done|]. split; [by rewrite Ha|]. split; [done|].
      rewrite Hs, A3. cbn. by rewrite Nat.eqb_refl. }
    eapply staged_own with (c := c); [done|done|done|done|cbn; rewrite call_in_on_done; set_solver|done| |by apply HN| | |].
    + intros c' Ne. unfold same_story. rewrite Hs. cbn. destruct (Nat.eqb_spec c c'); [done|by rewrite app_nil_r].
    + intros p H. destruct (HP p H) as [H'| ->]; [by left|by right].
    + intros t' c' s r' H. left. by eapply HD.
    + rewrite Ha. auto.
  - cbn in St. subst f. assert (origin_of w' (w_sends w) (flush_done q)) as HO. { right. exists t, k, n, q. by split. }
    assert (forall c, same_story c w w') as Hss. { intros c. unfold same_story. rewrite Hs. cbn. by rewrite app_nil_r. }
    eapply staged_step; [done|done|done|by auto|by apply HN| | |].
    + intros p H. destruct (HP p H) as [H'| ->]; [by left|by right].
    + intros t' c' s r' H. left. split; [by eapply HD|done].
    + rewrite Ha. auto.
Qed.

Lemma stage_completed w t n f s r : (origin_of w n f) -> (exists t' b, ECompleted t' n s r b ∈ w_trace w) -> forall j, j ∈ completed_code f s r -> stage w t j.
Proof.
  intros HO (t' & b & HC) j. destruct HO as [(t0 & c & a & m & r' & -> & H1 & H2 & H3 & H4 & H5)|(t0 & k & m & q & -> & H)].
  - assert (stage w t (IDone c s r)) as HD. { exists a. rewrite H5. by eapply settled_server. }
    destruct (ap_request a) as [q|q|q] eqn:Eq; cbn.
    + destruct (status_eqb s SOk) eqn:Es; cbn.
      * apply status_eqb_eq in Es as ->. rewrite !elem_of_cons, elem_of_nil. intros [->|[->|[]]]; [|done]. cbn. exists t0, n, c, t', r, b. done.
      * rewrite !elem_of_cons, elem_of_nil. intros [->|[]]. done.
    + rewrite !elem_of_cons, elem_of_nil. intros [->|[->|[]]]; [|done]. cbn. exists t0, n, (FromCall c), t', s, r, b. split; [done|]. split; [done|].
      destruct (status_eqb s SOk) eqn:Es; [left; split; [by apply status_eqb_eq|done]|right; split; [|done]]. intros ->. done.
    + rewrite !elem_of_cons, elem_of_nil. intros [->|[]]. done.
  - destruct q as [q|q|q]; cbn; rewrite ?elem_of_cons, ?elem_of_nil; try by intros [].
    intros [->|[]]. cbn. exists t0, n, (FromFlush k m), t', s, r, b. split; [done|]. split; [done|].
    destruct (status_eqb s SOk) eqn:Es; [left; split; [by apply status_eqb_eq|done]|right; split; [|done]]. intros ->. done.
Qed.

Lemma reach_staged ths w : reach (ths, w) -> staged w ths /\ fresh w.
Proof.
  revert ths w. apply reach_ind'.
  - intros a Ha. split; [|done]. constructor.
    + intros t st j H. done.
    + intros p H. by apply elem_of_nil in H.
    + intros t c s r H. by apply elem_of_nil in H.
    + intros k n call r. cbn. by rewrite (proj2 (new_aggs_sequential debug _ md5 _ _ Ha)).
  - intros ths w _ [[S1 S2 S3 S4] F] _. split; [|done]. constructor; try done. by apply each_spawn.
  - intros ths w t i rest new w' R [S F] Hc Ht E. pose proof (st_each S _ Ht (elem_of_list_here _ _)) as St. split.
    + assert (forall j, j ∈ [] -> stage w' t j) as HNil by (intros j H; by apply elem_of_nil in H).
      destruct E; try (eapply staged_quiet; [done|done|done|by left|done|exact HNil]).
      all: try (eapply staged_quiet; [done|done|done|right; eexists; split; [reflexivity|done]|done|exact HNil]).
      * by apply staged_call.
      * eapply staged_quiet; [done|done|done|right; eexists; split; [reflexivity|done]| |].
        -- wsimpl. intros q Hq. rewrite (delete_perm _ _ H). set_solver.
        -- intros j. rewrite !elem_of_cons, elem_of_nil. intros [->|[->|[]]]; [|done]. split.
           ++ eapply origin_mono; [| |eapply (st_pending S (p := (n, f))); by eapply elem_of_list_lookup_2].
              ** split; [intros ev; rewrite elem_log; auto|done].
              ** intros c _. unfold same_story. cbn. rewrite story_snoc. cbn. by rewrite app_nil_r.
           ++ exists t, false. apply elem_log. by right.
      * eapply staged_quiet; [done|done|done|right; eexists; split; [reflexivity|done]|done|].
        assert (exists t', ETick t' ∈ w_trace (log (ETick t) w)) as HT by (exists t; apply elem_log; by right).
        intros j. cbn [tick_code app]. rewrite !elem_of_cons, elem_of_nil. naive_solver.
      * eapply staged_quiet; [done|done|done|right; eexists; split; [reflexivity|done]|done|].
        assert (exists t', EDestroy t' ∈ w_trace (log (EDestroy t) (set_closing true w))) as HT by (exists t; apply elem_log; by right).
        intros j. cbn [destroy_code app]. rewrite !elem_of_cons, elem_of_nil. naive_solver.
      * eapply staged_quiet; [done|done|done|by left|done|]. intros j Hj%elem_of_list_singleton. subst j. done.
      * eapply staged_quiet; [done|done|done|by left|done|]. intros j Hj%elem_of_list_singleton. subst j. exists a. cbn [stage] in St. rewrite St. by constructor.
      * eapply staged_quiet; [done|done|done|by left|done|]. intros j Hj%elem_of_list_singleton. subst j. destruct u as [[c a]|]; exact St.
      * by eapply staged_body.
      * eapply staged_quiet; [done|done|done|by left|done|]. intros j. rewrite !elem_of_cons, elem_of_nil. intros [->|[->|[]]]; done.
      * eapply staged_quiet; [done|done|done|right; eexists; split; [reflexivity|done]|done|]. intros j. unfold callback_code.
        rewrite elem_of_app, !elem_of_cons, elem_of_nil. intros [[->|[->|[]]]|Hj]; [done|done|].
        destruct q; try by apply elem_of_nil in Hj. by apply elem_of_list_singleton in Hj as ->.
      * eapply staged_quiet; [done|done|done|by left|done|]. intros j. unfold after_code. destruct (status_eqb (rs_status r) SNotFound) eqn:Es.
        -- apply status_eqb_eq in Es. rewrite elem_of_app, !elem_of_cons, elem_of_nil. intros [[->|[->|[]]]|Hj]; [|done|].
           ++ exists a, n, r. split; [exact St|]. done.
           ++ destruct (ap_request a); try by apply elem_of_nil in Hj. by apply elem_of_list_singleton in Hj as ->.
        -- intros Hj%elem_of_list_singleton. subst j. destruct St as (A1 & A2 & A3). exists a. rewrite A3. econstructor; [done|done|]. intros Hn. rewrite Hn in Es. done.
      * eapply staged_transport; [done|done|done|done|done|by left|done|]. intros p. wsimpl. rewrite elem_of_app, elem_of_list_singleton. auto.
      * eapply staged_transport; [done|done|done|done|done|right; eexists _, _; reflexivity| |by auto].
        intros HO j Hj%elem_of_list_singleton. subst j. split; [done|]. exists t, true. apply elem_log. by right.
      * eapply staged_quiet; [done|done|done|by left|done|]. destruct St as [O1 O2]. by eapply stage_completed.
      * destruct St as (a & St). eapply staged_own with (c := c); [done|done|done|done|cbn; set_solver| | | | | |].
        -- split; [intros ev; rewrite elem_log; auto|done].
        -- intros c' Ne. unfold same_story. cbn. rewrite story_snoc. cbn. destruct (Nat.eqb_spec c c'); [done|by rewrite app_nil_r].
        -- intros j Hj%elem_of_list_singleton. by subst j.
        -- auto.
        -- intros t' c' s' r' [H|H]%elem_log; [by left|]. injection H as -> -> -> ->. right. exists a, (story c (w_trace w)). split.
           ++ eapply settled_mono; [|done]. split; [intros ev; rewrite elem_log; auto|done].
           ++ cbn. rewrite story_snoc. cbn. by rewrite Nat.eqb_refl.
        -- auto.
    + assert (forall c', c' ∈ tok i -> c' ∈ started (w_trace w)) as Hst by (intros c' H; by apply (others_tok _ R Hc Ht H)).
      intros c. destruct E; wsimpl; rewrite ?started_snoc, ?story_snoc, ?app_nil_r; try apply F.
      all: try (cbn [concerns]; rewrite app_nil_r; apply F).
      * rewrite not_elem_of_app. intros [H1 H2]. rewrite (F c H1). cbn. destruct (Nat.eqb_spec (w_calls w) c) as [<-|]; [set_solver|done].
      * intros H1. rewrite (F c H1). destruct u as [[c' a']|]; [|done]. cbn. destruct (Nat.eqb_spec c' c) as [->|]; [|done]. exfalso. apply H1, Hst. cbn. set_solver.
      * intros H1. rewrite (F c H1). cbn. destruct o as [c'|]; [|done]. destruct (Nat.eqb_spec c' c) as [->|]; [|done]. exfalso. apply H1, Hst. cbn.
        destruct St as (a & m & r & _ & _ & -> & ->). rewrite call_in_on_done. set_solver.
      * intros H1. rewrite (F c H1). cbn. destruct o as [c'|]; [|done]. destruct (Nat.eqb_spec c' c) as [->|]; [|done]. exfalso. apply H1, Hst. cbn.
        destruct St as (a & m & r' & _ & _ & -> & ->). rewrite call_in_on_done. set_solver.
      * intros H1. rewrite (F c H1). cbn. destruct (Nat.eqb_spec c0 c) as [->|]; [|done]. exfalso. apply H1, Hst. cbn. set_solver.
Qed.
End stage.
