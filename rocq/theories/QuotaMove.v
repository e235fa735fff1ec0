(** One call of the quota aggregator as a move from one list of entries to the next, and what it does to each entry. *)
From Verif Require Import Base Proto Signature SignatureSpec OpAgg OpAggSpec Lru LruSpec LruSim Timeout TimeoutSign Agg QuotaAgg QuotaFuel QuotaSim QuotaStep QuotaStep2 QuotaTrace QuotaAggSpec QuotaCall QuotaInv.
From stdpp Require Import gmap list.
Local Open Scope Z_scope.
Set Implicit Arguments.

Section move.
Variable debug : bool.
Variable ord : hash_order.
Variable md5 : string -> string.
Variable clk : nat -> Z.
Variable cf : quota_config.
Variable idle : Z.
Notation mx := (qp_entries (qf_options cf)).
Hypothesis Hclk : proper_clock clk.
Notation sg := (qsig md5).
Notation item := (ReturnAllocateQuotaRequest ord cf).
Notation looked := (looked ord clk cf).
Notation counted := (counted debug).
Notation passes := (passes ord clk cf).
Notation owned := (owned debug md5).
Implicit Types (l : list cell) (x y : cell) (T : list (cell * fate)) (p : cell * fate) (e : quota_elem) (q : quota_request) (ev : quota_event)
  (st : quota_agg) (h : list quota_event).
Let Hmono := proj1 Hclk.
Let Hpos := proj2 Hclk.

(** Expiry at reading [lo]. *)
Definition expires (fl : bool) (lo hi : nat) l l' (its : list quota_request) T : Prop :=
  passes fl lo hi l l' its T /\
  Forall (fun p => match p.2 with Stay => idle < 0 \/ clk lo - idle <= c_time p.1 | _ => 0 <= idle /\ c_time p.1 < clk lo - idle end) T /\
  (0 <= idle -> Forall (fun p => match p.2 with Gone i | Back i _ | Sent i _ _ => (lo < i)%nat | Stay => True end) T).

Inductive moved : quota_call -> bool -> nat -> nat -> list cell -> quota_result -> bool -> nat -> nat -> list cell -> Prop :=
| mv_reject q fl tk nx l : ~ well_addressed cf q -> moved (QQuota q) fl tk nx l (QuotaResult SInvalidArgument None []) fl tk nx l
| mv_hit q fl tk nx l T l1 tk1 its a x b e : well_addressed cf q -> expires fl tk tk1 l l1 its T -> l1 = a ++ x :: b -> c_key x = sg q ->
    counted q (looked (c_elem x) tk1 its).1.1 = Ok e ->
    moved (QQuota q) fl tk nx l (QuotaResult SOk (Some (qe_response e)) (looked (c_elem x) tk1 its).2) fl (looked (c_elem x) tk1 its).1.2 nx
      (a ++ Cell (c_addr x) (c_time x) e :: b)
| mv_miss q fl tk nx l T l1 tk1 its T2 tk2 l2 its2 l' : well_addressed cf q -> expires fl tk tk1 l l1 its T -> sg q ∉ c_key <$> l1 ->
    passes fl (S (S tk1)) tk2 l1 l2 its2 T2 -> l' ≡ₚ Cell nx (clk (S tk1)) (fresh_elem md5 q (clk tk1)) :: l2 ->
    moved (QQuota q) fl tk nx l (QuotaResult SOk (Some empty_quota_response) ((its ++ its2) ++ [q])) fl tk2 (S nx) l'
| mv_answer q r fl tk nx l T l1 tk1 its a x b : expires fl tk tk1 l l1 its T -> l1 = a ++ x :: b -> c_key x = sg q ->
    moved (QResponse q r) fl tk nx l (QuotaResult SOk None its) fl tk1 nx
      (a ++ Cell (c_addr x) (c_time x) (set_quota_response r (set_qe_in_flight false (c_elem x))) :: b)
| mv_answer_none q r fl tk nx l T l1 tk1 its : expires fl tk tk1 l l1 its T -> sg q ∉ c_key <$> l1 ->
    moved (QResponse q r) fl tk nx l (QuotaResult SOk None its) fl tk1 nx l1
| mv_flush fl tk nx l T l1 tk1 its : expires fl tk tk1 l l1 its T -> moved QFlushC fl tk nx l (QuotaResult SOk None its) fl tk1 nx l1
| mv_flush_all fl tk nx l : moved QFlushAllC fl tk nx l (QuotaResult SOk None []) true tk nx [].

Lemma not_addressed q st fuel : ~ well_addressed cf q -> Quota debug ord md5 clk cf fuel q st = Ok (st, QuotaResult SInvalidArgument None []).
Proof.
  intros H. unfold Quota. destruct (String.eqb_spec (qr_service q) (qf_service cf)) as [E|E]; [|done]. cbn [negb].
  destruct (qr_operation q) eqn:Eo; [|done]. destruct H. split; [done|congruence].
Qed.
Lemma addressed_dec q : well_addressed cf q \/ ~ well_addressed cf q.
Proof.
  unfold well_addressed. destruct (String.eqb_spec (qr_service q) (qf_service cf)) as [E|E]; [|right; tauto].
  destruct (qr_operation q); [by left|right; tauto].
Qed.
Lemma expire_expires fl l tk it : tidy clk l tk -> exists T its, let r := expire ord clk cf idle fl l tk it in r.2 = it ++ its /\ expires fl tk r.1.2 l r.1.1 its T.
Proof.
  intros H. destruct (@expire_trace ord clk cf idle Hmono fl l tk it Hpos H) as (T & (its & E & P) & _ & _ & F1 & F2). exists T, its. split; [done|]. split_and!; done.
Qed.

Lemma step_upto n m call st : (n <= m)%nat -> upto (qstep debug ord md5 clk cf n call st) (qstep debug ord md5 clk cf m call st).
Proof. intros H. destruct call; cbn; [by apply quota_upto|by apply response_upto|by apply flush_upto|by apply flush_all_upto]. Qed.
Lemma step_moved call c u fl l st' res : 0 < mx -> Good clk cf idle c u l -> returns debug ord md5 clk cf call (QuotaAgg (Some c) u fl) (st', res) ->
  exists c' u' l' fl', st' = QuotaAgg (Some c') u' fl' /\ Good clk cf idle c' u' l' /\ moved call fl (l_tick c) (p_next u) l res fl' (l_tick c') (p_next u') l'.
Proof.
  intros Hmx G [n E]. assert (Hn : (n <= n + (length l + 8))%nat) by lia. apply (upto_ok (step_upto call (QuotaAgg (Some c) u fl) Hn)) in E. clear Hn.
  set (m := (n + (length l + 8))%nat) in *. assert (length l + 8 <= m)%nat as Hm by (unfold m; lia). clearbody m.
  assert (exists T its, let r := expire ord clk cf idle fl l (l_tick c) [] in r.2 = its /\ expires fl (l_tick c) r.1.2 l r.1.1 its T /\ tidy clk r.1.1 r.1.2) as (T & its & Ei & Ex & Ti).
  { destruct G as (L & _ & _ & _ & Ti). destruct (@expire_trace ord clk cf idle Hmono fl l (l_tick c) [] Hpos Ti) as (T & (its & Ei & P) & Ti' & _ & F1 & F2).
    exists T, its. cbn in Ei. split_and!; done. }
  destruct call as [q|q r| |]; cbn [qstep] in E.
  - destruct (addressed_dec q) as [Ha|Ha].
    2: { rewrite not_addressed in E by done. injection E as <- <-. exists c, u, l, fl. split_and!; try done. by constructor. }
    destruct (quota_sim debug ord md5 Hclk Hmx fl G Ha Hm) as [(a & x & b & El & Hk & S)|[Hk S]]; cbn zeta in S.
    + destruct (counted _ _) as [e| | |] eqn:Ec; try (by destruct (S (st', res))).
      destruct S as (c' & u' & E2 & G2 & T2 & N2). rewrite E2 in E. injection E as <- <-. exists c', u'. eexists. exists fl. split_and!; [done|exact G2|].
      rewrite T2, N2. rewrite Ei in *. eapply mv_hit; try done.
    + destruct (insert_new _ _ _ _ _ _ _ _ _ _) as [[[l' tk] it]|] eqn:En; [|by destruct (S (st', res))].
      destruct S as (c' & u' & E2 & G2 & T2 & N2). rewrite E2 in E. injection E as <- <-.
      assert (tidy clk (expire ord clk cf idle fl l (l_tick c) []).1.1 (S (expire ord clk cf idle fl l (l_tick c) []).1.2)) as Ti2.
      { destruct Ti as [T1' T2']. split; [done|]. eapply Forall_impl; [exact T2'|]. cbn. intros y [? Hy]. split; [done|]. etrans; [exact Hy|]. apply Hmono. lia. }
      pose proof (@insert_trace ord clk cf mx Hmono fl _ _ _ _ _ l' tk it Hpos Ti2 En) as (tr & its' & l2 & -> & Pa & Pl & _).
      exists c', u', l', fl. split_and!; [done|exact G2|]. rewrite T2, N2. rewrite Ei. eapply mv_miss; try done.
  - destruct (response_sim ord md5 Hclk Hmx q r fl G Hm) as (c' & u' & l' & E2 & G2 & T2 & N2 & D). rewrite E2 in E. injection E as <- <-.
    exists c', u', l', fl. split_and!; [done|exact G2|]. rewrite T2, N2, Ei.
    destruct D as [(a & x & b & El & Hk & ->)|[Hk ->]]; [eapply mv_answer; done|eapply mv_answer_none; done].
  - destruct (flush_sim ord Hclk fl G Hm) as (c' & u' & E2 & G2 & T2 & N2). rewrite E2 in E. injection E as <- <-.
    exists c', u'. eexists. exists fl. split_and!; [done|exact G2|]. rewrite T2, N2, Ei. eapply mv_flush; done.
  - destruct (@flush_all_sim ord clk cf idle Hmx m c u fl l G ltac:(lia)) as (c' & u' & E2 & G2 & T2 & N2). rewrite E2 in E. injection E as <- <-.
    exists c', u', [], true. split_and!; [done|exact G2|]. rewrite T2, N2. constructor.
Qed.

(** ** One entry *)
Lemma pass_cell fl lo hi l l1 its T x1 : passes fl lo hi l l1 its T -> NoDup (c_key <$> l) -> x1 ∈ l1 ->
  exists x (s : bool), x ∈ l /\ c_addr x1 = c_addr x /\ c_key x1 = c_key x /\
    (if s then pending (c_elem x) = true /\ item (c_elem x) ∈ its /\ exists i, (lo <= i < hi)%nat /\ c_elem x1 = refreshed (clk i) (c_elem x) else c_elem x1 = c_elem x) /\
    (forall h, told_apart md5 h -> Forall (owned h) l -> forall it, it ∈ its -> sg it = c_key x -> s = true /\ it = item (c_elem x)).
Proof.
  intros P N Hx. destruct (passes_from P Hx) as (p & Hp & Ha & Hin). exists p.1. pose proof (passes_ok P Hp) as Ok.
  assert (forall h, told_apart md5 h -> Forall (owned h) l -> forall it, it ∈ its -> sg it = c_key p.1 -> exists i j k, p.2 = Sent i j k /\ it = item (c_elem p.1)) as U.
  { intros h A O it Hit Hk. destruct (passes_item P Hit) as (p' & i & j & k & Hp' & E' & -> & Hin'). rewrite Forall_forall in O. rewrite (item_sig ord cf Hclk A (O _ Hin')) in Hk.
    assert (p' = p) as -> by (eapply passes_unique; [exact P|done..]). eauto. }
  unfold after in Ha. destruct p.2 as [|i j|i j k|i] eqn:E; try done; injection Ha as <-.
  1,2: exists false; split_and!; try done; intros h A O it Hit Hk; destruct (U h A O it Hit Hk) as (? & ? & ? & ? & ?); done.
  exists true. unfold fate_ok in Ok. rewrite E in Ok. destruct Ok as (_ & Hpe & ? & ? & ?). split_and!; try done.
  - by eapply passes_sent.
  - exists k. split; [lia|done].
  - intros h A O it Hit Hk. destruct (U h A O it Hit Hk) as (? & ? & ? & ? & ?). done.
Qed.

(** What a call does to an entry that stays: [s] says whether a refresh is handed out. *)
Definition cellmove ev l x x' (s : bool) : Prop :=
  let e := c_elem x in let e' := c_elem x' in let k := c_key x in
  c_addr x' = c_addr x /\ c_key x' = k /\ qe_request e' = qe_request e /\
  (if s then qe_in_flight e = false /\ qduring clk (qe_last e') ev else qe_last e' = qe_last e) /\
  (qe_in_flight e' = false -> responds md5 k ev \/ (s = false /\ qe_in_flight e = false)) /\
  (responds_with md5 k (qe_response e') ev \/ (~ responds md5 k ev /\ qe_response e' = qe_response e)) /\
  ((is_positive e = false -> qe_agg e = None) -> is_positive e' = false -> qe_agg e' = None) /\
  (qasks md5 cf k ev -> qres_response (qv_result ev) = Some (qe_response e')) /\
  (s = true -> Exists (fun it => it = item e \/ it = in_normal_mode (item e)) (qres_flushed (qv_result ev))) /\
  (forall h, told_apart md5 h -> Forall (owned h) l -> forall it, it ∈ qres_flushed (qv_result ev) -> sg it = k ->
     s = true /\ ((is_positive e = false -> qe_agg e = None) -> is_positive e = false ->
       qasks md5 cf k ev /\ qo_mode (qop_get (qr_operation it)) = QUOTA_NORMAL)).

Lemma pending_open e : pending e = true -> qe_in_flight e = false /\ is_aggregated e = true.
Proof. unfold pending. by rewrite andb_true_iff, negb_true_iff. Qed.
Lemma aggregated_positive e : is_aggregated e = true -> (is_positive e = false -> qe_agg e = None) -> is_positive e = true.
Proof. unfold is_aggregated. destruct (is_positive e); [done|]. intros H E. by rewrite E in H. Qed.

(** A call that only looks at the entry. *)
Lemma move_idle ev l l1 T its fl hi x1 : passes fl (qv_from ev) hi l l1 its T -> (hi <= qv_to ev)%nat -> NoDup (c_key <$> l) -> x1 ∈ l1 ->
  ~ responds md5 (c_key x1) ev -> ~ qasks md5 cf (c_key x1) ev -> its ⊆ qres_flushed (qv_result ev) ->
  (forall h, told_apart md5 h -> Forall (owned h) l -> forall it, it ∈ qres_flushed (qv_result ev) -> sg it = c_key x1 -> it ∈ its) ->
  exists x s, x ∈ l /\ cellmove ev l x x1 s.
Proof.
  intros P Hto N Hx Hr Hq Hsub Hback. destruct (pass_cell P N Hx) as (x & s & Hin & E1 & E2 & E3 & U). exists x, s. split; [done|].
  rewrite E2 in Hr, Hq, Hback. unfold cellmove. split_and!; try done.
  - by destruct s; [destruct E3 as (_ & _ & i & _ & ->)|rewrite E3].
  - destruct s; [|by rewrite E3]. destruct E3 as (Hp & _ & i & Hi & ->). apply pending_open in Hp as [Hp _]. split; [done|]. exists i. split; [lia|done].
  - destruct s; [destruct E3 as (_ & _ & i & _ & ->); done|]. rewrite E3. intros ?. by right.
  - right. split; [done|]. by destruct s; [destruct E3 as (_ & _ & i & _ & ->)|rewrite E3].
  - by destruct s; [destruct E3 as (_ & _ & i & _ & ->)|rewrite E3].
  - intros ->. destruct E3 as (_ & Hi & _). apply Exists_exists. exists (item (c_elem x)). split; [by apply Hsub|by left].
  - intros h A O it Hit Hk. destruct (U h A O it (Hback h A O it Hit Hk) Hk) as [-> ->]. split; [done|]. intros H1 H2. destruct E3 as (Hp & _).
    apply pending_open in Hp as [_ Hp]. by rewrite (aggregated_positive _ Hp H1) in H2.
Qed.

(** A new entry. *)
Definition cellnew ev x' (nx : nat) : Prop :=
  exists q t, qv_call ev = QQuota q /\ well_addressed cf q /\ sg q = c_key x' /\ c_addr x' = nx /\ c_elem x' = fresh_elem md5 q t /\ qduring clk t ev /\
    q ∈ qres_flushed (qv_result ev) /\ qres_response (qv_result ev) = Some empty_quota_response.

Lemma looked_cases e tk its : (looked e tk its = (e, tk, its) /\ qe_in_flight e = true) \/ (looked e tk its = (e, S tk, its) /\ qe_in_flight e = false) \/
  (exists i it, looked e tk its = (refreshed (clk i) e, S i, its ++ [it]) /\ (tk <= i)%nat /\ qe_in_flight e = false /\ 
    it = if is_positive e then item e else in_normal_mode (item e)).
Proof.
  unfold looked. destruct (qe_in_flight e); [by left|]. right. destruct (_ <=? _); [|by left]. right. exists (S tk). eexists. split; [done|]. split; [lia|done].
Qed.
Lemma looked_item_sig e x h : c_elem x = e -> told_apart md5 h -> owned h x -> sg (if is_positive e then item e else in_normal_mode (item e)) = c_key x.
Proof. intros <- A O. destruct (is_positive _); rewrite ?normal_sig; by eapply item_sig. Qed.
Lemma counted_same q e e' : counted q e = Ok e' -> qe_request e' = qe_request e /\ qe_response e' = qe_response e /\ qe_last e' = qe_last e /\ qe_in_flight e' = qe_in_flight e /\
  (is_positive e = false -> e' = e).
Proof.
  unfold counted, QuotaCall.counted, QAggregate. destruct (is_positive e) eqn:Ep; [|intros [= <-]; done]. by destruct (match qe_agg e with Some _ => _ | None => _ end); [intros [= <-]|..].
Qed.
Lemma positive_same e e' : qe_response e' = qe_response e -> is_positive e' = is_positive e.
Proof. unfold is_positive. by intros ->. Qed.

Lemma nodup_mid {A B} (f : A -> B) (a : list A) (x : A) b (y : A) : NoDup (f <$> a ++ x :: b) -> y ∈ a ++ b -> f y <> f x.
Proof.
  rewrite fmap_app, fmap_cons, <- Permutation_middle. intros [H _]%NoDup_cons Hy E. apply H. rewrite <- E, <- fmap_app. by apply elem_of_list_fmap_1.
Qed.
Lemma elem_mid {A} (a : list A) (x : A) b (y : A) : y ∈ a ++ x :: b <-> y = x \/ y ∈ a ++ b.
Proof. rewrite <- Permutation_middle. apply elem_of_cons. Qed.

Lemma looked_tk e tk its : (tk <= (looked e tk its).1.2)%nat.
Proof. apply looked_tick. Qed.

(** A quota call that finds its entry. *)
Lemma move_hit ev l T tk1 its q fl a x1 b e' : passes fl (qv_from ev) tk1 l (a ++ x1 :: b) its T -> NoDup (c_key <$> l) ->
  qv_call ev = QQuota q -> well_addressed cf q -> sg q = c_key x1 -> counted q (looked (c_elem x1) tk1 its).1.1 = Ok e' ->
  qv_result ev = QuotaResult SOk (Some (qe_response e')) (looked (c_elem x1) tk1 its).2 -> qv_to ev = (looked (c_elem x1) tk1 its).1.2 ->
  (exists x s, x ∈ l /\ cellmove ev l x (Cell (c_addr x1) (c_time x1) e') s) /\
  (forall y, y ∈ a ++ b -> exists x s, x ∈ l /\ cellmove ev l x y s).
Proof.
  intros P N Hc Hw Hk Ce Hr Ht. set (m := looked (c_elem x1) tk1 its) in *.
  assert (NoDup (c_key <$> a ++ x1 :: b)) as N1 by (by eapply passes_keys).
  assert (forall k, ~ responds md5 k ev) as NR by (intros k (? & ? & E & _); congruence).
  assert (forall h, Forall (owned h) l -> Forall (owned h) (a ++ x1 :: b)) as O1.
  { intros h O. apply Forall_forall. intros y Hy. destruct (passes_from P Hy) as (p & _ & Ha & Hin). eapply owned_after; [exact Ha|]. rewrite Forall_forall in O. auto. }
  assert (tk1 <= qv_to ev)%nat as Hto by (rewrite Ht; apply looked_tk).
  split.
  - destruct (pass_cell P N (x1:=x1) ltac:(set_solver)) as (x & s1 & Hin & E1 & E2 & E3 & U).
    assert (qasks md5 cf (c_key x) ev) as Hask by (exists q; split_and!; try done; congruence).
    destruct (counted_same _ _ Ce) as (C1 & C2 & C3 & C4 & C5). pose proof (positive_same (c_elem x1) _ eq_refl) as _.
    pose proof (counted_sig _ _ _ Ce) as C6. fold m in C6. unfold m in C6. rewrite looked_sig in C6.
    assert (lo : (qv_from ev <= tk1)%nat) by apply P.
    assert (qe_response (c_elem x1) = qe_response (c_elem x) /\ qe_request (c_elem x1) = qe_request (c_elem x) /\
      ((is_positive (c_elem x) = false -> qe_agg (c_elem x) = None) -> is_positive (c_elem x1) = false -> qe_agg (c_elem x1) = None)) as (X1 & X2 & X3).
    { destruct s1; [destruct E3 as (_ & _ & i & _ & ->); done|by rewrite E3]. }
    assert (qe_response m.1.1 = qe_response (c_elem x1) /\ qe_request m.1.1 = qe_request (c_elem x1) /\ (qe_agg (c_elem x1) = None -> qe_agg m.1.1 = None)) as (M1 & M2 & M3).
    { unfold m. destruct (looked_cases (c_elem x1) tk1 its) as [[-> _]|[[-> _]|(i & it & -> & _)]]; done. }
    assert (is_positive m.1.1 = is_positive (c_elem x1)) as Mp by (by apply positive_same).
    assert (is_positive e' = is_positive m.1.1) as Ep by (by apply positive_same).
    assert ((is_positive (c_elem x) = false -> qe_agg (c_elem x) = None) -> is_positive e' = false -> qe_agg e' = None) as Agg.
    { intros H1 H2. rewrite Ep in H2. rewrite (C5 H2). apply M3, X3; [done|]. by rewrite <- Mp. }
    destruct (looked_cases (c_elem x1) tk1 its) as [[Em Hf]|[[Em Hf]|(i & it & Em & Hi & Hf & Hit)]]; fold m in Em; rewrite Em in *; cbn [fst snd] in *.
    1, 2: exists x, s1; split; [done|]; unfold cellmove; cbn [c_addr c_elem]; split_and!; try done.
    all: try (by rewrite C1, X2). all: try (unfold c_key at 1; cbn [c_elem]; rewrite C6; exact E2).
    all: try (right; split; [apply NR|congruence]).
    all: try (intros _; rewrite Hr; cbn; congruence).
    + destruct s1; [|by rewrite C3, E3]. destruct E3 as (Hp & _ & i & Hi & E3). split; [by apply pending_open in Hp as [? _]|].
      rewrite C3, E3. exists i. split; [lia|done].
    + intros H. rewrite C4, Hf in H. done.
    + intros ->. rewrite Hr. destruct E3 as (_ & Hi & _). apply Exists_exists. exists (item (c_elem x)). split; [done|by left].
    + intros h A O it Hit Hki. rewrite Hr in Hit. cbn in Hit. destruct (U h A O it Hit Hki) as [-> ->]. split; [done|]. intros H1 H2. destruct E3 as (Hp & _).
      apply pending_open in Hp as [_ Hp]. by rewrite (aggregated_positive _ Hp H1) in H2.
    + destruct s1; [|by rewrite C3, E3]. destruct E3 as (Hp & _ & i & Hi & E3). rewrite E3 in Hf. done.
    + intros H. right. split; [|]; destruct s1; [destruct E3 as (_ & _ & i & _ & E3); rewrite E3 in Hf; done|done|destruct E3 as (_ & _ & i & _ & E3); rewrite E3 in Hf; done|congruence].
    + intros ->. rewrite Hr. destruct E3 as (_ & Hi & _). apply Exists_exists. exists (item (c_elem x)). split; [done|by left].
    + intros h A O it Hit Hki. rewrite Hr in Hit. cbn in Hit. destruct (U h A O it Hit Hki) as [-> ->]. split; [done|]. intros H1 H2. destruct E3 as (Hp & _).
      apply pending_open in Hp as [_ Hp]. by rewrite (aggregated_positive _ Hp H1) in H2.
    + assert (s1 = false) as -> by (destruct s1; [destruct E3 as (_ & _ & j & _ & E3); rewrite E3 in Hf|]; done).
      rewrite E3 in *.
      exists x, true; split; [done|]; unfold cellmove; cbn [c_addr c_elem]; split_and!; try done.
      * rewrite C3. exists i. cbn. split; [lia|done].
      * intros H. rewrite C4 in H. done.
      * right; split; [apply NR|congruence].
      * intros _; rewrite Hr; cbn; congruence.
      * intros _. rewrite Hr. cbn. apply Exists_app. right. constructor. rewrite Hit. destruct (is_positive (c_elem x)); auto.
      * intros h A O it' Hit' Hki. split; [done|]. intros H1 H2. split; [done|]. rewrite Hr in Hit'. cbn in Hit'. apply elem_of_app in Hit' as [Hit'|Hit'].
        { by destruct (U h A O it' Hit' Hki) as [? _]. }
        apply elem_of_list_singleton in Hit'. rewrite Hit', Hit, H2. done.
  - intros y Hy. assert (c_key y <> c_key x1) as Hne by (by eapply nodup_mid).
    eapply move_idle; [exact P|exact Hto|done|by apply elem_mid; right|apply NR| | |].
    + intros (q' & Eq & _ & Hk'). congruence.
    + rewrite Hr. unfold m. cbn [qres_flushed]. destruct (looked_cases (c_elem x1) tk1 its) as [[-> _]|[[-> _]|(i & it & -> & _)]]; cbn; set_solver.
    + intros h A O it Hit Hki. rewrite Hr in Hit. cbn [qres_flushed] in Hit. unfold m in Hit.
      destruct (looked_cases (c_elem x1) tk1 its) as [[Em _]|[[Em _]|(i & it' & Em & _ & _ & Hit')]]; rewrite Em in Hit; cbn in Hit; [done..|].
      apply elem_of_app in Hit as [Hit|Hit]; [done|]. apply elem_of_list_singleton in Hit. exfalso. apply Hne. rewrite <- Hki, Hit, Hit'.
      eapply looked_item_sig; [done|exact A|]. specialize (O1 h O). rewrite Forall_forall in O1. apply O1. apply elem_mid. by left.
Qed.

Lemma move_answer ev l T tk1 its q r fl a x1 b : passes fl (qv_from ev) tk1 l (a ++ x1 :: b) its T -> NoDup (c_key <$> l) ->
  qv_call ev = QResponse q r -> sg q = c_key x1 -> qv_result ev = QuotaResult SOk None its -> qv_to ev = tk1 ->
  (exists x s, x ∈ l /\ cellmove ev l x (Cell (c_addr x1) (c_time x1) (set_quota_response r (set_qe_in_flight false (c_elem x1)))) s) /\
  (forall y, y ∈ a ++ b -> exists x s, x ∈ l /\ cellmove ev l x y s).
Proof.
  intros P N Hc Hk Hr Ht. assert (NoDup (c_key <$> a ++ x1 :: b)) as N1 by (by eapply passes_keys).
  assert (forall k, ~ qasks md5 cf k ev) as NQ by (intros k (? & E & _); congruence). split.
  - destruct (pass_cell P N (x1:=x1) ltac:(set_solver)) as (x & s1 & Hin & E1 & E2 & E3 & U). exists x, s1. split; [done|].
    assert (responds_with md5 (c_key x) r ev) as R by (exists q; split; [done|congruence]).
    unfold cellmove; cbn [c_addr c_elem]; split_and!; try done.
    + unfold c_key at 1. cbn [c_elem]. rewrite answered_sig. exact E2.
    + unfold set_quota_response. destruct (0 <? _); cbn; destruct s1; [destruct E3 as (_ & _ & i & _ & ->)|rewrite E3|destruct E3 as (_ & _ & i & _ & ->)|rewrite E3]; done.
    + assert (qe_last (set_quota_response r (set_qe_in_flight false (c_elem x1))) = qe_last (c_elem x1)) as -> by (unfold set_quota_response; by destruct (0 <? _)).
      destruct s1; [|by rewrite E3]. destruct E3 as (Hp & _ & i & Hi & ->). apply pending_open in Hp as [Hp _]. split; [done|]. exists i. rewrite Ht. done.
    + intros _. left. exists q, r; split; [done|congruence].
    + left. assert (qe_response (set_quota_response r (set_qe_in_flight false (c_elem x1))) = r) as -> by (unfold set_quota_response; by destruct (0 <? _)). done.
    + intros _. unfold set_quota_response, is_positive. destruct (Z.ltb_spec 0 (Z.of_nat (length (qs_errors r)))); [done|]. cbn. destruct (qs_errors r); [done|cbn in *; lia].
    + intros H. by apply NQ in H.
    + intros ->. rewrite Hr. destruct E3 as (_ & Hi & _). apply Exists_exists. exists (item (c_elem x)). split; [done|by left].
    + rewrite Hr. cbn. intros h A O it Hit Hki. destruct (U h A O it Hit Hki) as [-> ->]. split; [done|]. intros H1 H2. destruct E3 as (Hp & _).
      apply pending_open in Hp as [_ Hp]. by rewrite (aggregated_positive _ Hp H1) in H2.
  - intros y Hy. assert (c_key y <> c_key x1) as Hne by (by eapply nodup_mid).
    eapply move_idle; [exact P|by rewrite Ht|done|by apply elem_mid; right| |apply NQ|by rewrite Hr|].
    + intros (q' & r' & Eq & Hk'). congruence.
    + intros h A O it Hit Hki. by rewrite Hr in Hit.
Qed.

Lemma move_miss ev l T tk1 l1 its q fl T2 l2 its2 y : passes fl (qv_from ev) tk1 l l1 its T -> passes fl (S (S tk1)) (qv_to ev) l1 l2 its2 T2 -> NoDup (c_key <$> l) ->
  qv_call ev = QQuota q -> sg q ∉ c_key <$> l1 -> qv_result ev = QuotaResult SOk (Some empty_quota_response) ((its ++ its2) ++ [q]) -> y ∈ l2 ->
  exists x s, x ∈ l /\ cellmove ev l x y s.
Proof.
  intros P P2 N Hc Hk Hr Hy. assert (NoDup (c_key <$> l1)) as N1 by (by eapply passes_keys).
  destruct (pass_cell P2 N1 Hy) as (x1 & s2 & Hin1 & F1 & F2 & F3 & U2). destruct (pass_cell P N Hin1) as (x & s1 & Hin & E1 & E2 & E3 & U).
  assert (forall k, ~ responds md5 k ev) as NR by (intros k (? & ? & E & _); congruence).
  assert (lo : (qv_from ev <= tk1)%nat) by apply P. assert (hi : (S (S tk1) <= qv_to ev)%nat) by apply P2.
  assert (~ qasks md5 cf (c_key x) ev) as NQ.
  { intros (q' & E & _ & Hk'). apply Hk. assert (q' = q) as -> by congruence. rewrite Hk', <- E2. by apply elem_of_list_fmap_1. }
  assert (forall h, Forall (owned h) l -> Forall (owned h) l1) as O1.
  { intros h O. apply Forall_forall. intros z Hz. destruct (passes_from P Hz) as (p & _ & Ha & Hinz). eapply owned_after; [exact Ha|]. rewrite Forall_forall in O. auto. }
  assert (s1 && s2 = false) as Hs. { destruct s1, s2; try done. destruct E3 as (_ & _ & i & _ & E3). destruct F3 as (Hp & _). by rewrite E3 in Hp. }
  assert (U3 : forall h, told_apart md5 h -> Forall (owned h) l -> forall it, it ∈ qres_flushed (qv_result ev) -> sg it = c_key x -> s1 || s2 = true /\ is_aggregated (c_elem x) = true).
  { rewrite Hr. cbn. intros h A O it Hit Hki. rewrite !elem_of_app, elem_of_list_singleton in Hit. destruct Hit as [[Hit|Hit]|Hit].
    - destruct (U h A O it Hit Hki) as [-> _]. split; [done|]. destruct E3 as (Hp & _). by apply pending_open in Hp as [_ ?].
    - rewrite <- E2 in Hki. destruct (U2 h A (O1 h O) it Hit Hki) as [-> _]. split; [by destruct s1|]. destruct s1; [done|]. rewrite E3 in F3. destruct F3 as (Hp & _). by apply pending_open in Hp as [_ ?].
    - subst it. exfalso. apply Hk. rewrite Hki, <- E2. by apply elem_of_list_fmap_1. }
  exists x, (s1 || s2). split; [done|]. unfold cellmove. split_and!; try done.
  - congruence.
  - congruence.
  - destruct s1; [destruct E3 as (_ & _ & i & _ & E3)|]; (destruct s2; [destruct F3 as (_ & _ & j & _ & ->)|rewrite F3]); by rewrite E3.
  - destruct s1; cbn.
    + destruct s2; [done|]. rewrite F3. destruct E3 as (Hp & _ & i & Hi & ->). apply pending_open in Hp as [Hp _]. split; [done|]. exists i. split; [lia|done].
    + rewrite <- E3. destruct s2; [|by rewrite F3]. destruct F3 as (Hp & _ & i & Hi & ->). apply pending_open in Hp as [Hp _]. split; [done|]. exists i. split; [lia|done].
  - destruct s2; [destruct F3 as (_ & _ & j & _ & ->); done|]. rewrite F3. destruct s1; [destruct E3 as (_ & _ & i & _ & ->); done|]. rewrite E3. intros ?. by right.
  - right. split; [apply NR|]. destruct s1; [destruct E3 as (_ & _ & i & _ & E3)|]; (destruct s2; [destruct F3 as (_ & _ & j & _ & ->)|rewrite F3]); by rewrite E3.
  - destruct s2; [destruct F3 as (_ & _ & j & _ & ->); done|]. rewrite F3. by destruct s1; [destruct E3 as (_ & _ & i & _ & ->)|rewrite E3].
  - rewrite Hr. cbn. intros H. apply Exists_exists. destruct s1; cbn in H.
    + destruct E3 as (_ & Hi & _). exists (item (c_elem x)). split; [set_solver|by left].
    + subst s2. destruct F3 as (_ & Hi & _). rewrite E3 in Hi. exists (item (c_elem x)). split; [set_solver|by left].
  - intros h A O it Hit Hki. destruct (U3 h A O it Hit Hki) as [H1 H2]. split; [done|]. intros H3 H4. by rewrite (aggregated_positive _ H2 H3) in H4.
Qed.

Lemma cell_moved call fl tk nx l res fl' tk' nx' l' st' x' : moved call fl tk nx l res fl' tk' nx' l' -> NoDup (c_key <$> l) -> x' ∈ l' ->
  let ev := QuotaEvent call res tk tk' st' in
  (cellnew ev x' nx /\ nx' = S nx) \/ exists x s, x ∈ l /\ cellmove ev l x x' s.
Proof.
  intros M N Hx ev. inversion M; subst; clear M.
  - right. exists x', false. split; [done|]. unfold cellmove. cbn. split_and!; try done.
    + intros ?. by right.
    + right. split; [|done]. by intros (? & ? & ? & _).
    + intros (q' & [= <-] & Hw & _). done.
    + intros h A O it Hit. by apply elem_of_nil in Hit.
  - right. destruct H0 as (P & _). destruct (@move_hit ev l T tk1 its q fl' a x b e P N eq_refl H (eq_sym H2) H3 eq_refl eq_refl) as [M1 M2].
    apply elem_mid in Hx as [->|Hx]; [exact M1|by apply M2].
  - destruct H0 as (P & _). rewrite H3 in Hx. apply elem_of_cons in Hx as [->|Hx].
    + left. split; [|done]. exists q, (clk tk1). split_and!; try done.
      * exists tk1. cbn. assert (tk <= tk1)%nat by apply P. assert (S (S tk1) <= tk')%nat by apply H2. split; [lia|done].
      * cbn. set_solver.
    + right. by eapply (@move_miss ev l T tk1 l1 its q fl' T2 l2 its2 x' P H2 N eq_refl H1 eq_refl Hx).
  - right. destruct H as (P & _). destruct (@move_answer ev l T tk' its q r fl' a x b P N eq_refl (eq_sym H1) eq_refl eq_refl) as [M1 M2].
    apply elem_mid in Hx as [->|Hx]; [exact M1|by apply M2].
  - right. destruct H as (P & _). eapply (@move_idle ev l l' T its fl' tk' x' P); try done.
    + intros (q' & r' & [= <- <-] & Hk). apply H0. rewrite Hk. by apply elem_of_list_fmap_1.
    + intros (? & ? & _). done.
  - right. destruct H as (P & _). eapply (@move_idle ev l l' T its fl' tk' x' P); try done.
    + intros (? & ? & ? & _). done.
    + intros (? & ? & _). done.
  - by apply elem_of_nil in Hx.
Qed.
Lemma owned_moved call fl tk nx l res fl' tk' nx' l' st' h : moved call fl tk nx l res fl' tk' nx' l' -> Forall (owned h) l ->
  Forall (owned (h ++ [QuotaEvent call res tk tk' st'])) l'.
Proof.
  intros M O. set (ev := QuotaEvent _ _ _ _ _). assert (Forall (owned (h ++ [ev])) l) as O'.
  { eapply Forall_impl; [exact O|]. intros x. apply owned_mono. set_solver. }
  assert (forall f lo hi m m' its T, passes f lo hi m m' its T -> Forall (owned (h ++ [ev])) m -> Forall (owned (h ++ [ev])) m') as Pass.
  { intros f lo hi m m' its T P F. apply Forall_forall. intros y Hy. destruct (passes_from P Hy) as (p & _ & Ha & Hin). eapply owned_after; [exact Ha|]. rewrite Forall_forall in F. auto. }
  clear O. inversion M; subst; clear M; try done.
  - destruct H0 as (P & _). apply (Pass _ _ _ _ _ _ _ P) in O'. rewrite Forall_app, Forall_cons in *. destruct O' as (Oa & (X1 & X2 & g & B & F) & Ob).
    assert (c_key (Cell (c_addr x) (c_time x) e) = c_key x) as Ek by (unfold c_key; cbn [c_elem]; by rewrite (counted_sig _ _ _ H3), looked_sig).
    assert (qe_request e = qe_request (c_elem x)) as Er.
    { destruct (counted_same _ _ H3) as (C1 & _). rewrite C1. destruct (looked_cases (c_elem x) tk1 its) as [[-> _]|[[-> _]|(i & it & -> & _)]]; done. }
    unfold owned, QuotaInv.owned. rewrite Ek. cbn [c_elem]. rewrite Er. split_and!; try done.
    + assert (op_of md5 (h ++ [ev]) (c_key x) (qop_get (qr_operation q))) as Oq by (exists ev, q; split_and!; try done; set_solver).
      assert (exists g1, qbuilt debug (qe_agg (looked (c_elem x) tk1 its).1.1) g1 /\ Forall (op_of md5 (h ++ [ev]) (c_key x)) g1) as (g1 & B1 & F1).
      { destruct (looked_cases (c_elem x) tk1 its) as [[-> _]|[[-> _]|(i & it & -> & _)]]; cbn [fst snd]; [by exists g|by exists g|]. exists []. split; [done|]. by apply Forall_nil_2. }
      unfold QuotaCall.counted in H3. destruct (is_positive _) eqn:Ep.
      * exists (g1 ++ [qop_get (qr_operation q)]). split; [by eapply qbuilt_more|]. apply Forall_app. by repeat constructor.
      * injection H3 as <-. by exists g1.
  - destruct H0 as (P & _). apply (Pass _ _ _ _ _ _ _ P) in O'. apply (Pass _ _ _ _ _ _ _ H2) in O'. rewrite H3. apply Forall_cons. split; [|done].
    split; [done|]. split; [exists ev, q; split_and!; try done; set_solver|]. exists []. split; [done|]. by apply Forall_nil_2.
  - destruct H as (P & _). apply (Pass _ _ _ _ _ _ _ P) in O'. rewrite Forall_app, Forall_cons in *. destruct O' as (Oa & (X1 & X2 & g & B & F) & Ob).
    unfold owned, QuotaInv.owned. unfold c_key at 3 4 5. cbn [c_elem]. rewrite answered_sig. fold (c_key x).
    assert (qe_request (set_quota_response r (set_qe_in_flight false (c_elem x))) = qe_request (c_elem x)) as -> by (unfold set_quota_response; by destruct (0 <? _)).
    split_and!; try done. unfold set_quota_response. destruct (0 <? _); [exists []; split; [done|by apply Forall_nil_2]|by exists g].
  - destruct H as (P & _). by apply (Pass _ _ _ _ _ _ _ P) in O'.
  - destruct H as (P & _). by apply (Pass _ _ _ _ _ _ _ P) in O'.
Qed.
End move.
