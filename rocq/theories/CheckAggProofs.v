(** Proofs about the check aggregator: the calls on the list of cached entries. *)
From Verif Require Import Base Proto Signature OpAgg OpAggSpec Lru LruSim LruOps LruSpec Timeout TimeoutSign Agg AggCache CheckAgg CheckAggSpec.
From stdpp Require Import gmap list.
Local Open Scope Z_scope.
Set Implicit Arguments.

Section proofs.
Variable ord : hash_order.
Variable md5 : string -> string.
Variable clk : nat -> Z.
Variable cf : check_config.
Hypothesis Hclk : proper_clock clk.
Variable idle : Z.
Notation cell := (nat * ent check_elem)%type.
Notation gone := (removed_check ord cf).
Notation mx := (co_entries (cc_options cf)).
Notation Rp := (ARep clk mx idle true).
Notation fresh := (fresh_cells idle).
Notation stale := (stale_cells idle).
Notation tch := (touch clk true).
Notation sg := (sig_of ord md5).
Notation F := (flush_interval_in_cycle cf).
Implicit Types (c : lru nat) (u : pool check_elem check_request) (l : list cell) (p : cell) (q : check_request) (e : check_elem).
Let Hmono := proj1 Hclk.
Let Hpos := proj2 Hclk.

Lemma assign_eq a e u : assign a e u = Pool (<[a := e]> (p_vals u)) (p_next u) (p_items u).
Proof. done. Qed.

(** what a check does to the contents of the entry it finds *)
Definition absorb q e : outcome check_elem :=
  match cs_errors (ce_response e) with [] => Aggregate ord md5 cf q e | _ => Ok e end.

Lemma absorb_same q e e1 : absorb q e = Ok e1 -> ce_response e1 = ce_response e /\ ce_last e1 = ce_last e.
Proof.
  unfold absorb. destruct (cs_errors _); [|by intros [= <-]]. unfold Aggregate. destruct (match ce_agg e with Some _ => _ | None => _ end); try done.
  cbn [obind]. by intros [= <-].
Qed.

Lemma run_check c u l q : Rp c u l -> eligible cf q = true ->
  let k := sg q in let t1 := (l_tick c + reads idle)%nat in let l1 := fresh (clk (l_tick c)) l in let em := emit gone (stale (clk (l_tick c)) l) [] in
  (k ∉ n_key <$> l1.*2 /\ exists c' u', Check ord md5 clk cf q (CheckAgg (Some c) u) = Ok (CheckAgg (Some c') u', CheckResult SNotFound None em) /\
     Rp c' u' l1 /\ l_tick c' = t1 /\ p_items u' = []) \/
  (exists p, p ∈ l1 /\ n_key p.2 = k /\
     match absorb q (n_val p.2) with
     | Ok e1 =>
       let due := F <=? clk t1 - ce_last (n_val p.2) in
       exists c' u' e2, Check ord md5 clk cf q (CheckAgg (Some c) u) =
           Ok (CheckAgg (Some c') u', CheckResult (if due then SNotFound else SOk) (if due then None else Some (ce_response (n_val p.2))) em) /\
         Rp c' u' (tch k e2 (if due then S (S t1) else S t1) l1) /\ l_tick c' = S (if due then S (S t1) else S t1) /\ p_items u' = [] /\
         ce_agg e2 = ce_agg e1 /\ ce_response e2 = ce_response (n_val p.2) /\ ce_last e2 = (if due then clk (S t1) else ce_last (n_val p.2))
     | _ => forall r, Check ord md5 clk cf q (CheckAgg (Some c) u) <> Ok r
     end).
Proof.
  intros H He k t1 l1 em. unfold eligible in He. apply andb_prop in He as [He1 He2].
  unfold Check. rewrite He1. cbn [negb]. destruct (cr_operation q) as [o|] eqn:Eo; [|done]. rewrite He2. cbn [negb ca_cache ca_pool].
  apply (ar_items []) in H. change (GenerateCheckRequestSignature ord md5 q) with k.
  change (OnCacheEntryDelete ord cf) with (passive (delete_with gone)).
  destruct (decide (k ∈ n_key <$> l1.*2)) as [Hk|Hk].
  2: { left. split; [done|]. destruct (agg_miss gone Hmono Hpos H Hk) as (c' & u' & E1 & E2 & E3 & E4).
       rewrite E1. cbn [obind fst snd]. exists c', (with_items [] u'). split.
       { unfold finish. cbn [fst snd]. rewrite E4. done. }
       split; [by apply ar_items|]. done. }
  right. apply elem_of_list_fmap in Hk as (e0 & Ek & Hk). apply elem_of_list_fmap in Hk as (p & -> & Hp).
  exists p. split; [done|]. split; [done|].
  destruct (agg_hit gone Hmono Hpos H Hp) as (c1 & u1 & E1 & E2 & E3 & E4 & E5 & E6). rewrite Ek. rewrite E1. cbn [obind fst snd].
  unfold deref. rewrite E2. cbn [obind]. set (e := n_val p.2) in *.
  assert (Ht : read_now clk c1 = clk t1). { unfold read_now. by rewrite E3. }
  assert (Hfin : forall n e2 st r, (l_tick c1 <= n)%nat ->
     exists c' u', (let! w := Release (passive (delete_with gone)) clk (n_key p.2) p.1 (set_tick n c1, assign p.1 e2 u1) in Ok (finish st r w)) =
       Ok (CheckAgg (Some c') u', CheckResult st r em) /\ Rp c' u' (tch (n_key p.2) e2 n l1) /\ l_tick c' = S n /\ p_items u' = []).
  { intros n e2 st r Hn. destruct (E6 n e2 (p_items u1) Hn) as (c2 & R1 & R2 & R3). rewrite assign_eq, R1. cbn [obind].
    exists c2, (with_items [] (Pool (<[p.1:=e2]> (p_vals u1)) (p_next u1) (p_items u1))).
    split; [unfold finish; cbn [fst snd p_items]; by rewrite E4|]. split; [apply (ar_items []) in R2; exact R2|].
    split; [|done]. rewrite R3. unfold touch_reads. lia. }
  assert (A1 : after_now c1 = set_tick (S t1) c1). { unfold after_now. by rewrite E3. }
  assert (A2 : after_now (after_now c1) = set_tick (S (S t1)) c1). { unfold after_now. cbn [set_tick l_tick]. rewrite E3. done. }
  unfold absorb, ShouldFlush. rewrite Ht.
  destruct (cs_errors (ce_response e)) as [|x xs] eqn:Ex.
  - cbn [length]. change (0 <? Z.of_nat 0) with false. cbn [obind].
    destruct (Aggregate ord md5 cf q e) as [e1| | |] eqn:Ea; cbn [obind]; [|by intros ? ?..].
    assert (El : ce_last e1 = ce_last e /\ ce_response e1 = ce_response e).
    { unfold Aggregate in Ea. destruct (match ce_agg e with Some _ => _ | None => _ end); try done. cbn [obind] in Ea. by injection Ea as <-. }
    destruct El as [El1 El2]. rewrite El1. destruct (F <=? clk t1 - ce_last e) eqn:Ed.
    + rewrite A2. replace (read_now clk (after_now c1)) with (clk (S t1)) by (rewrite A1; done).
      destruct (Hfin (S (S t1)) (set_ce_last (clk (S t1)) (set_ce_flushing true e1)) SNotFound None) as (c' & u' & R1 & R2 & R3 & R4); [lia|].
      exists c', u', (set_ce_last (clk (S t1)) (set_ce_flushing true e1)). split; [exact R1|]. split; [exact R2|]. split; [done|]. split; [done|]. cbn. rewrite ?El1, ?El2. done.
    + rewrite A1. destruct (Hfin (S t1) e1 SOk (Some (ce_response e))) as (c' & u' & R1 & R2 & R3 & R4); [lia|].
      exists c', u', e1. split; [rewrite El2; exact R1|]. split; [exact R2|]. split; [done|]. split; [done|]. cbn. rewrite ?El1, ?El2. done.
  - cbn [length]. replace (0 <? Z.of_nat (S (length xs))) with true by (symmetry; apply Z.ltb_lt; lia).
    destruct (F <=? clk t1 - ce_last e) eqn:Ed.
    + rewrite A2. replace (read_now clk (after_now c1)) with (clk (S t1)) by (rewrite A1; done).
      destruct (Hfin (S (S t1)) (set_ce_last (clk (S t1)) e) SNotFound None) as (c' & u' & R1 & R2 & R3 & R4); [lia|].
      exists c', u', (set_ce_last (clk (S t1)) e). split; [exact R1|]. done.
    + rewrite A1. destruct (Hfin (S t1) e SOk (Some (ce_response e))) as (c' & u' & R1 & R2 & R3 & R4); [lia|].
      exists c', u', e. split; [exact R1|]. done.
Qed.

Lemma run_cache c u l q r : Rp c u l ->
  let k := sg q in let t1 := (l_tick c + reads idle)%nat in let l1 := fresh (clk (l_tick c)) l in let em := emit gone (stale (clk (l_tick c)) l) [] in
  (k ∉ n_key <$> l1.*2 /\ exists c' u' a, CacheResponse ord md5 clk cf q r (CheckAgg (Some c) u) =
       Ok (CheckAgg (Some c') u', CheckResult SOk None (emit gone (rev (drop (room mx) l1)) em)) /\
     Rp c' u' ((a, Ent k (CheckElem None r (clk t1) 0 false) (clk (S (S t1)))) :: take (room mx) l1) /\ l_tick c' = S (S (S t1)) /\ p_items u' = []) \/
  (exists p, p ∈ l1 /\ n_key p.2 = k /\ exists c' u' e2,
     CacheResponse ord md5 clk cf q r (CheckAgg (Some c) u) = Ok (CheckAgg (Some c') u', CheckResult SOk None em) /\
     Rp c' u' (tch k e2 (S t1) l1) /\ l_tick c' = S (S t1) /\ p_items u' = [] /\
     ce_agg e2 = ce_agg (n_val p.2) /\ ce_response e2 = r /\ ce_last e2 = clk t1).
Proof.
  intros H k t1 l1 em. unfold CacheResponse. cbn [ca_cache ca_pool].
  apply (ar_items []) in H. change (GenerateCheckRequestSignature ord md5 q) with k.
  change (OnCacheEntryDelete ord cf) with (passive (delete_with gone)).
  destruct (decide (k ∈ n_key <$> l1.*2)) as [Hk|Hk].
  - right. apply elem_of_list_fmap in Hk as (e0 & Ek & Hk). apply elem_of_list_fmap in Hk as (p & -> & Hp).
    exists p. split; [done|]. split; [done|].
    destruct (agg_hit gone Hmono Hpos H Hp) as (c1 & u1 & E1 & E2 & E3 & E4 & E5 & E6). rewrite Ek. rewrite E1. cbn [obind fst snd].
    unfold deref. rewrite E2. cbn [obind]. set (e := n_val p.2) in *.
    assert (Ht : read_now clk c1 = clk t1). { unfold read_now. by rewrite E3. }
    rewrite Ht. assert (A1 : after_now c1 = set_tick (S t1) c1). { unfold after_now. by rewrite E3. }
    rewrite A1. set (e2 := set_ce_flushing false (set_ce_scale 0 (set_ce_response r (set_ce_last (clk t1) e)))).
    destruct (E6 (S t1) e2 (p_items u1)) as (c2 & R1 & R2 & R3); [lia|]. rewrite assign_eq, R1. cbn [obind].
    exists c2, (with_items [] (Pool (<[p.1:=e2]> (p_vals u1)) (p_next u1) (p_items u1))), e2.
    split; [unfold finish; cbn [fst snd p_items]; by rewrite E4|]. split; [apply (ar_items []) in R2; exact R2|].
    split; [|done]. rewrite R3. unfold touch_reads. lia.
  - left. split; [done|]. destruct (agg_miss gone Hmono Hpos H Hk) as (c' & u' & E1 & E2 & E3 & E4).
    rewrite E1. cbn [obind fst snd].
    assert (Ht : read_now clk c' = clk t1). { unfold read_now. by rewrite E3. } rewrite Ht.
    assert (A1 : after_now c' = set_tick (S t1) c'). { unfold after_now. by rewrite E3. } rewrite A1.
    assert (H2 : Rp (set_tick (S t1) c') u' l1). { apply ar_tick; [apply Hmono|done|lia]. }
    destruct (agg_insert gone Hmono Hpos (CheckElem None r (clk t1) 0 false) H2 Hk) as (c2 & u2 & I1 & I2 & I3 & I4 & I5).
    cbn [alloc fst snd]. cbn [alloc snd] in I1. change (l_next_id (set_tick (S t1) c')) with (l_next_id c') in *. rewrite I1. cbn [obind].
    exists c2, (with_items [] u2), (p_next u').
    split; [unfold finish; cbn [fst snd]; by rewrite I4, E4|]. split; [by apply ar_items|]. split; [|done].
    rewrite I3. cbn [set_tick l_tick]. unfold insert_reads. lia.
Qed.
End proofs.
