(** What the calls of the quota aggregator do to its list of entries. *)
From Verif Require Import Base Proto Signature OpAgg Lru LruSpec LruSim Timeout Agg QuotaAgg QuotaFuel QuotaSim QuotaStep QuotaStep2 QuotaTrace QuotaAggSpec.
From stdpp Require Import gmap list.
Local Open Scope Z_scope.
Set Implicit Arguments.

Section call.
Variable debug : bool.
Variable ord : hash_order.
Variable md5 : string -> string.
Variable clk : nat -> Z.
Variable cf : quota_config.
Variable idle : Z.
Notation mx := (qp_entries (qf_options cf)).
Hypothesis Hclk : proper_clock clk.
Hypothesis Hmx : 0 < mx.
Notation Rep := (Rep mx idle).
Implicit Types (l : list cell) (L : list node) (x : cell) (c : lru nat) (u : pool quota_elem quota_request).
Let Hmono := proj1 Hclk.
Let Hpos := proj2 Hclk.

(** The entries of an aggregator between two calls. *)
Definition Good c u l : Prop :=
  exists L, Rep [] c u L l /\ free_pins L /\ Z.of_nat (length l) <= mx /\ tidy clk l (l_tick c).

(** What a Quota call does to the entry it finds. *)
Definition looked (e : quota_elem) (tk : nat) (it : list quota_request) : quota_elem * nat * list quota_request :=
  if qe_in_flight e then (e, tk, it)
  else if refresh_interval_in_cycle cf <=? clk tk - qe_last e then
    (refreshed (clk (S tk)) e, S (S tk),
     it ++ [if is_positive e then ReturnAllocateQuotaRequest ord cf e else in_normal_mode (ReturnAllocateQuotaRequest ord cf e)])
  else (e, S tk, it).
Definition counted (q : quota_request) (e : quota_elem) : outcome quota_elem :=
  if is_positive e then QAggregate debug q e else Ok e.
Definition fresh_elem (q : quota_request) (t : Z) : quota_elem :=
  QuotaElem None q empty_quota_response (qsig md5 q) t true.

Lemma looked_sig e tk it : qe_signature (looked e tk it).1.1 = qe_signature e.
Proof. unfold looked. destruct (qe_in_flight e); [done|]. by destruct (_ <=? _). Qed.
Lemma counted_sig q e e' : counted q e = Ok e' -> qe_signature e' = qe_signature e.
Proof. unfold counted, QAggregate. destruct (is_positive e); [|by intros [= <-]]. by destruct (match qe_agg e with Some _ => _ | None => _ end); [intros [= <-]|..]. Qed.
Lemma answered_sig r e : qe_signature (set_quota_response r (set_qe_in_flight false e)) = qe_signature e.
Proof. unfold set_quota_response. by destruct (0 <? _). Qed.

Lemma tidy_time l1 x l2 e tk tk' : (tk <= tk')%nat -> tidy clk (l1 ++ x :: l2) tk -> tidy clk (l1 ++ Cell (c_addr x) (c_time x) e :: l2) tk'.
Proof.
  intros Ht [Hs Hb]. split.
  - clear Hb. induction l1 as [|y l1 IH]; cbn in *; apply StronglySorted_inv in Hs as [Hs Hy]; constructor; auto.
    rewrite Forall_app, Forall_cons in *. done.
  - rewrite Forall_app, Forall_cons in *. destruct Hb as (H1 & H2 & H3). pose proof (Hmono Ht). split; [|split].
    + eapply Forall_impl; [exact H1|]. cbn. lia.
    + cbn in *. lia.
    + eapply Forall_impl; [exact H3|]. cbn. lia.
Qed.
Lemma looked_tick e tk it : (tk <= (looked e tk it).1.2)%nat.
Proof. unfold looked. destruct (qe_in_flight e); [done|]. destruct (_ <=? _); cbn; lia. Qed.

Lemma expired fl fuel c u l : Good c u l -> (length l + 4 <= fuel)%nat ->
  let r := expire ord clk cf idle fl l (l_tick c) [] in
  exists c' u' L', RemoveExpiredEntries (OnCacheEntryDelete ord clk cf fl fuel) clk fuel (c, with_items [] u) = Ok (c', u') /\
    Rep [] c' u' L' r.1.1 /\ free_pins L' /\ Z.of_nat (length r.1.1) <= mx /\ tidy clk r.1.1 (l_tick c') /\ l_tick c' = r.1.2 /\ p_items u' = r.2 /\ p_next u' = p_next u /\
    (length r.1.1 <= length l)%nat.
Proof.
  intros (L & R & P & Len & T) Hf. cbn zeta.
  destruct (@expire_trace ord clk cf idle Hmono fl l (l_tick c) [] Hpos T) as (tr & (its & Ei & Pa) & T' & Len' & _). 
  pose proof (rep_items clk [] R) as R0.
  destruct (@expire_ok ord clk cf mx idle fl fuel fuel c (with_items [] u) L l R0 P) as (c' & u' & L' & E & R' & P' & Tk & It & Nx & Ll); try done.
  { rewrite (rep_len R). done. } { lia. } { lia. }
  exists c', u', L'. cbn [with_items p_items] in *. rewrite Tk. split_and!; try done. lia.
Qed.

Lemma quota_sim fuel q c u fl l : Good c u l -> well_addressed cf q -> (length l + 8 <= fuel)%nat ->
  let r := expire ord clk cf idle fl l (l_tick c) [] in
  (exists l1 x l2, r.1.1 = l1 ++ x :: l2 /\ c_key x = qsig md5 q /\
     let s := looked (c_elem x) r.1.2 r.2 in
     match counted q s.1.1 with
     | Ok e => exists c' u', Quota debug ord md5 clk cf fuel q (QuotaAgg (Some c) u fl) =
                 Ok (QuotaAgg (Some c') u' fl, QuotaResult SOk (Some (qe_response e)) s.2) /\
                 Good c' u' (l1 ++ Cell (c_addr x) (c_time x) e :: l2) /\ l_tick c' = s.1.2 /\ p_next u' = p_next u
     | _ => forall v, Quota debug ord md5 clk cf fuel q (QuotaAgg (Some c) u fl) <> Ok v
     end) \/
  (qsig md5 q ∉ c_key <$> r.1.1 /\
     match insert_new ord clk cf mx fl r.1.1 (p_next u) (fresh_elem q (clk r.1.2)) (S r.1.2) r.2 with
     | Some (l', tk, it) => exists c' u', Quota debug ord md5 clk cf fuel q (QuotaAgg (Some c) u fl) =
                 Ok (QuotaAgg (Some c') u' fl, QuotaResult SOk (Some empty_quota_response) (it ++ [q])) /\
                 Good c' u' l' /\ l_tick c' = tk /\ p_next u' = S (p_next u)
     | None => forall v, Quota debug ord md5 clk cf fuel q (QuotaAgg (Some c) u fl) <> Ok v
     end).
Proof.
  intros G [Hs Ho] Hf. cbn zeta. destruct (@expired fl fuel c u l G ltac:(lia)) as (c1 & u1 & L1 & E & R & P & Len & T & Tk & It & Nx & Ll). cbn zeta in *.
  unfold Quota. rewrite Hs, String.eqb_refl. cbn [negb]. destruct (qr_operation q) as [o|]; [|done]. cbn [qg_cache qg_pool qg_flush_all]. clear Ho.
  fold (qsig md5 q).
  set (r := expire _ _ _ _ _ _ _ _) in *. destruct (decide (qsig md5 q ∈ c_key <$> r.1.1)) as [Hin|Hin].
  - left. apply elem_of_list_fmap in Hin as (x & Hx & Hin). apply elem_of_list_split in Hin as (l1 & l2 & El). exists l1, x, l2. split; [done|]. split; [done|].
    rewrite El in *. destruct (@lookup_hit clk mx idle _ _ _ _ _ _ _ _ _ _ E R P (eq_sym Hx)) as (c2 & La & p & Lb & E2 & -> & HL & Tk2 & R2).
    rewrite E2. cbn [obind fst snd]. rewrite (deref_some _ _ (rep_val R2 (x:=x) ltac:(set_solver))). cbn [obind].
    pose proof (rep_len R) as HLen. rewrite !app_length in HLen. cbn [length] in HLen. rewrite app_length in Len. cbn [length] in Len.
    assert (Z.of_nat (length (La ++ p :: Lb)) <= mx) as Hm by (rewrite app_length; cbn [length]; lia).
    assert (forall e tk u2, qe_signature e = c_key x -> p_vals u2 = p_vals u1 -> p_next u2 = p_next u1 -> (r.1.2 <= tk)%nat ->
      exists c', Release (OnCacheEntryDelete ord clk cf fl fuel) clk (qsig md5 q) (c_addr x) (set_tick tk c2, assign (c_addr x) e u2) = Ok (c', assign (c_addr x) e u2) /\
        l_tick c' = tk /\ Good c' (with_items [] (assign (c_addr x) e u2)) (l1 ++ Cell (c_addr x) (c_time x) e :: l2)) as Rel.
    { intros e tk u2 Hk Hv Hn Ht. rewrite Hx.
      destruct (@release_hit clk mx idle (OnCacheEntryDelete ord clk cf fl fuel) c2 u1 (assign (c_addr x) e u2) La p Lb l1 x l2 e tk R2 HL P Hm Hk) as (c' & E3 & Tk3 & R3 & P3).
      { cbn. by rewrite Hv. } { done. }
      exists c'. split; [done|]. split; [done|]. exists (La ++ (p.1, set_pin 0 p.2) :: Lb). split_and!; try done.
      - by apply (rep_items clk).
      - rewrite app_length. cbn [length]. lia.
      - rewrite Tk3. eapply tidy_time; [|exact T]. lia. }
    set (s := looked (c_elem x) r.1.2 r.2).
    assert ((if negb (qe_in_flight (c_elem x))
         then if ShouldRefresh clk cf (c_elem x) c2
              then (after_now (after_now c2),
                 AddRemovedItem (if negb (is_positive (set_qe_last (read_now clk (after_now c2)) (set_qe_in_flight true (c_elem x))))
                     then in_normal_mode (ReturnAllocateQuotaRequest ord cf (set_qe_last (read_now clk (after_now c2)) (set_qe_in_flight true (c_elem x))))
                     else ReturnAllocateQuotaRequest ord cf (set_qe_last (read_now clk (after_now c2)) (set_qe_in_flight true (c_elem x)))) u1,
                 cleared (set_qe_last (read_now clk (after_now c2)) (set_qe_in_flight true (c_elem x))))
              else (after_now c2, u1, c_elem x)
         else (c2, u1, c_elem x)) = (set_tick s.1.2 c2, with_items s.2 u1, s.1.1)) as EQ.
    { subst s. unfold looked, ShouldRefresh, read_now. change (l_tick (after_now c2)) with (S (l_tick c2)). rewrite Tk2, Tk.
      destruct (qe_in_flight (c_elem x)); cbn [negb].
      - cbn [fst snd]. rewrite <- It, <- Tk, <- Tk2. by destruct c2, u1.
      - destruct (_ <=? _); cbn [fst snd].
        + rewrite <- It. unfold AddRemovedItem. rewrite add_item_app. unfold after_now. cbn [set_tick l_tick]. rewrite Tk2, Tk.
          change (is_positive (set_qe_last (clk (S r.1.2)) (set_qe_in_flight true (c_elem x)))) with (is_positive (c_elem x)).
          by destruct (is_positive (c_elem x)).
        + rewrite <- It. unfold after_now. rewrite Tk2, Tk. by destruct u1. }
    cbn zeta. cbn zeta in EQ. rewrite EQ. clear EQ. fold (counted q s.1.1).
    destruct (counted q s.1.1) as [e| | |] eqn:Ec; cbn [obind]; try done.
    destruct (Rel e s.1.2 (with_items s.2 u1)) as (c' & E3 & Tk3 & G3); try done.
    { rewrite (counted_sig _ _ Ec). unfold s. by rewrite looked_sig. } { apply looked_tick. }
    rewrite E3. cbn [obind]. unfold qfinish. cbn [fst snd]. eexists _, _. split; [reflexivity|]. split_and!; try done.
  - right. split; [done|]. rewrite (@lookup_miss clk mx idle _ _ _ _ _ _ _ _ E R Hin). cbn [obind fst snd]. unfold alloc. cbn [fst snd].
    set (e := QuotaElem _ _ _ _ _ _). assert (e = fresh_elem q (clk r.1.2)) as Ee by (unfold e, read_now; by rewrite Tk).
    set (u2 := Pool _ _ _). rewrite <- Nx, <- Ee.
    assert (p_next u1 ∉ c_addr <$> r.1.1) as Ha by (intros H%(rep_fresh R); lia).
    assert (Rep [] (after_now c1) u2 L1 r.1.1) as R2.
    { eapply rep_cache; [apply shape_now; apply R|]. pose proof (rep_keys R) as K. destruct R as [S F A B]. constructor; try done.
      - clear -F B Ha. induction F as [|p x La la H F IH]; [constructor|]. constructor.
        + eapply same_other; [|exact H]. intros a ->. cbn. rewrite lookup_insert_ne; [done|]. intros Eq. apply Ha. rewrite Eq. cbn. constructor.
        + apply IH; set_solver.
      - intros a Hin'. cbn. apply B in Hin'. lia. }
    pose proof (rep_len R) as HLen.
    pose proof (@insert_ok ord clk cf mx idle fl fuel fuel (p_next u1) e (after_now c1) u2 L1 r.1.1 R2 P ltac:(lia) Hmx ltac:(lia) ltac:(lia)) as I.
    change (l_tick (after_now c1)) with (S (l_tick c1)) in I. change (p_items u2) with (p_items u1) in I. rewrite Tk, It in I.
    assert (p_vals u2 !! p_next u1 = Some e) as Hv by (cbn; by rewrite lookup_insert).
    specialize (I Hv Ha ltac:(cbn; lia) Hin).
    change (qe_signature e) with (qsig md5 q) in I.
    destruct (insert_new _ _ _ _ _ _ _ _ _ _) as [[[l' tk] it]|] eqn:Ei.
    2: { intros v Ev. match type of Ev with context [Lru.Insert ?d ?k ?n ?s ?a ?b ?w] => destruct (Lru.Insert d k n s a b w) as [w1| | |] eqn:Ew; try done end. by apply (I w1). }
    destruct I as (c' & u' & L' & E3 & R3 & P3 & Len3 & Tk3 & It3 & Nx3). rewrite E3. cbn [obind fst snd].
    destruct (@insert_trace ord clk cf mx Hmono fl r.1.1 (p_next u1) e (S r.1.2) r.2 l' tk it) as (tr & its & l3 & -> & Pa & Pl & T3); try done.
    { destruct T as [T1 T2]. split; [done|]. eapply Forall_impl; [exact T2|]. cbn. intros y [? Hy]. split; [done|]. etrans; [exact Hy|]. apply Hmono. lia. }
    assert (Cell (p_next u1) (clk (S r.1.2)) e ∈ l') as Hin' by (rewrite Pl; constructor).
    unfold AddRemovedItem. rewrite add_item_app. rewrite It3. pose proof (rep_val R3 Hin') as Hv3. cbn [c_addr c_elem] in Hv3.
    rewrite (@deref_some (with_items _ u') _ _ Hv3). cbn [obind].
    unfold qfinish. cbn [fst snd]. eexists _, _. split; [reflexivity|]. split_and!; try done.
    exists L'. split_and!; try done.
    + apply (rep_items clk). by apply (rep_items clk).
    + rewrite <- (rep_len R3). done.
    + by rewrite Tk3.
Qed.

Lemma response_sim fuel q rs c u fl l : Good c u l -> (length l + 8 <= fuel)%nat ->
  let r := expire ord clk cf idle fl l (l_tick c) [] in
  exists c' u' l', QCacheResponse ord md5 clk cf fuel q rs (QuotaAgg (Some c) u fl) = Ok (QuotaAgg (Some c') u' fl, QuotaResult SOk None r.2) /\
    Good c' u' l' /\ l_tick c' = r.1.2 /\ p_next u' = p_next u /\
    ((exists l1 x l2, r.1.1 = l1 ++ x :: l2 /\ c_key x = qsig md5 q /\
       l' = l1 ++ Cell (c_addr x) (c_time x) (set_quota_response rs (set_qe_in_flight false (c_elem x))) :: l2) \/
     (qsig md5 q ∉ c_key <$> r.1.1 /\ l' = r.1.1)).
Proof.
  intros G Hf. cbn zeta. destruct (@expired fl fuel c u l G ltac:(lia)) as (c1 & u1 & L1 & E & R & P & Len & T & Tk & It & Nx & Ll). cbn zeta in *.
  unfold QCacheResponse. cbn [qg_cache qg_pool qg_flush_all]. fold (qsig md5 q).
  set (r := expire _ _ _ _ _ _ _ _) in *. destruct (decide (qsig md5 q ∈ c_key <$> r.1.1)) as [Hin|Hin].
  - apply elem_of_list_fmap in Hin as (x & Hx & Hin). apply elem_of_list_split in Hin as (l1 & l2 & El).
    rewrite El in *. destruct (@lookup_hit clk mx idle _ _ _ _ _ _ _ _ _ _ E R P (eq_sym Hx)) as (c2 & La & p & Lb & E2 & -> & HL & Tk2 & R2).
    rewrite E2. cbn [obind fst snd]. rewrite (deref_some _ _ (rep_val R2 (x:=x) ltac:(set_solver))). cbn [obind].
    pose proof (rep_len R) as HLen. rewrite !app_length in HLen. cbn [length] in HLen. rewrite app_length in Len. cbn [length] in Len.
    assert (Z.of_nat (length (La ++ p :: Lb)) <= mx) as Hm by (rewrite app_length; cbn [length]; lia).
    set (e := set_quota_response _ _).
    destruct (@release_hit clk mx idle (OnCacheEntryDelete ord clk cf fl fuel) c2 u1 (assign (c_addr x) e u1) La p Lb l1 x l2 e (l_tick c2) R2 HL P Hm) as (c' & E3 & Tk3 & R3 & P3); try done.
    { apply answered_sig. }
    assert (set_tick (l_tick c2) c2 = c2) as Ec by (by destruct c2). rewrite Ec in E3. rewrite Hx, E3. cbn [obind]. unfold qfinish. cbn [fst snd].
    eexists _, _, _. split; [cbn [assign p_items]; rewrite It; reflexivity|]. split_and!; try done.
    + exists (La ++ (p.1, set_pin 0 p.2) :: Lb). split_and!; try done.
      * by apply (rep_items clk).
      * rewrite app_length. cbn [length]. lia.
      * rewrite Tk3, Tk2. eapply tidy_time; [|exact T]. lia.
    + by rewrite Tk3, Tk2.
    + left. eauto 10.
  - rewrite (@lookup_miss clk mx idle _ _ _ _ _ _ _ _ E R Hin). cbn [obind fst snd]. unfold qfinish. cbn [fst snd].
    eexists _, _, _. split; [rewrite It; reflexivity|]. split_and!; try done; [|right; done].
    exists L1. split_and!; try done. by apply (rep_items clk).
Qed.

Lemma flush_sim fuel c u fl l : Good c u l -> (length l + 8 <= fuel)%nat ->
  let r := expire ord clk cf idle fl l (l_tick c) [] in
  exists c' u', QFlush ord clk cf fuel (QuotaAgg (Some c) u fl) = Ok (QuotaAgg (Some c') u' fl, QuotaResult SOk None r.2) /\
    Good c' u' r.1.1 /\ l_tick c' = r.1.2 /\ p_next u' = p_next u.
Proof.
  intros G Hf. cbn zeta. destruct (@expired fl fuel c u l G ltac:(lia)) as (c1 & u1 & L1 & E & R & P & Len & T & Tk & It & Nx & Ll). cbn zeta in *.
  unfold QFlush. cbn [qg_cache qg_pool qg_flush_all]. rewrite E. cbn [obind fst snd]. unfold qfinish. cbn [fst snd]. rewrite It.
  eexists _, _. split; [reflexivity|]. split_and!; try done. exists L1. split_and!; try done. by apply (rep_items clk).
Qed.

Lemma flush_all_sim fuel c u fl l : Good c u l -> (1 <= fuel)%nat ->
  exists c' u', QFlushAll ord clk cf fuel (QuotaAgg (Some c) u fl) = Ok (QuotaAgg (Some c') u' true, QuotaResult SOk None []) /\
    Good c' u' [] /\ l_tick c' = l_tick c /\ p_next u' = p_next u.
Proof.
  intros (L & R & P & Len & T) Hf. pose proof (rep_items clk [] R) as R0.
  destruct (@remove_all_ok ord clk cf mx idle fuel c (with_items [] u) L l R0 P Hf) as (c' & u' & E & R' & Tk & It & Nx).
  unfold QFlushAll. cbn [qg_cache qg_pool]. rewrite E. cbn [obind fst snd]. unfold qfinish. cbn [fst snd]. rewrite It. cbn [with_items p_items].
  eexists _, _. split; [reflexivity|]. split_and!; try done. exists []. split_and!; try done.
  - by apply (rep_items clk).
  - by apply Forall_nil_2.
  - cbn. lia.
  - split; [constructor|by apply Forall_nil_2].
Qed.
End call.
