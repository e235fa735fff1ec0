(** Proofs about the report aggregator: one reported operation on the list of cached entries. *)
From Verif Require Import Base Proto Signature OpAgg OpAggSpec Lru LruSim LruOps LruSpec Timeout TimeoutSign Agg AggCache ReportAgg ReportAggSpec.
From stdpp Require Import gmap list.
Local Open Scope Z_scope.
Set Implicit Arguments.

Section proofs.
Variable ord : hash_order.
Variable md5 : string -> string.
Variable clk : nat -> Z.
Variable cf : report_config.
Hypothesis Hclk : proper_clock clk.
Variable idle : Z.
Notation cell := (nat * ent opagg)%type.
Notation gone := (removed_report ord cf).
Notation mx := (ro_entries (rc_options cf)).
Notation Rp := (ARep clk mx idle false).
Notation fresh := (fresh_cells idle).
Notation stale := (stale_cells idle).
Notation tch := (touch clk false).
Notation sg := (rsig ord md5).
Notation kinds := (rc_kinds cf).
Implicit Types (c : lru nat) (u : pool opagg report_request) (l : list cell) (p : cell) (o : operation).
Let Hmono := proj1 Hclk.
Let Hpos := proj2 Hclk.

Lemma run_one c u l o : Rp c u l ->
  let k := sg o in let t := l_tick c in let t1 := (t + reads idle)%nat in let l1 := fresh (clk t) l in let em := emit gone (stale (clk t) l) (p_items u) in
  (k ∉ n_key <$> l1.*2 /\
     match NewOperationAggregator ord md5 kinds o with
     | Ok a => exists c' u' x, report_one ord md5 clk cf (c, u) o = Ok (c', u') /\ Rp c' u' ((x, Ent k a (clk t1)) :: take (room mx) l1) /\
         l_tick c' = S t1 /\ p_items u' = emit gone (rev (drop (room mx) l1)) em
     | _ => forall r, report_one ord md5 clk cf (c, u) o <> Ok r
     end) \/
  (exists p, p ∈ l1 /\ n_key p.2 = k /\
     match MergeOperation ord md5 kinds o (n_val p.2) with
     | Ok a => exists c' u', report_one ord md5 clk cf (c, u) o = Ok (c', u') /\ l_tick c' = t1 /\
         if TooBig a then Rp c' u' (filter (fun q => n_key q.2 <> k) l1) /\ p_items u' = emit gone [(p.1, Ent k a (n_last p.2))] em
         else Rp c' u' (tch k a t1 l1) /\ p_items u' = em
     | _ => forall r, report_one ord md5 clk cf (c, u) o <> Ok r
     end).
Proof.
  intros H k t t1 l1 em. unfold report_one. cbn [fst snd].
  change (GenerateReportOperationSignature ord md5 o) with k.
  change (OnCacheEntryDelete ord cf) with (passive (delete_with gone)).
  destruct (decide (k ∈ n_key <$> l1.*2)) as [Hk|Hk].
  - right. apply elem_of_list_fmap in Hk as (e0 & Ek & Hk). apply elem_of_list_fmap in Hk as (p & -> & Hp).
    exists p. split; [done|]. split; [done|].
    destruct (agg_hit gone Hmono Hpos H Hp) as (c1 & u1 & E1 & E2 & E3 & E4 & E5 & E6). rewrite Ek. rewrite E1. cbn [obind fst snd].
    unfold deref. rewrite E2. cbn [obind].
    destruct (MergeOperation ord md5 kinds o (n_val p.2)) as [a| | |] eqn:Ea; cbn [obind]; [|by intros ? ?..].
    destruct (E6 t1 a (p_items u1)) as (c2 & R1 & R2 & R3); [lia|].
    assert (set_tick t1 c1 = c1) as Etk. { destruct c1. unfold set_tick. cbn in E3 |- *. by rewrite E3. }
    rewrite Etk in R1. unfold assign. rewrite R1. cbn [obind].
    fold t l1 in R2. unfold touch_reads in R3.
    destruct (TooBig a) eqn:Eb.
    + destruct (agg_remove gone Hmono (n_key p.2) R2) as (c3 & u3 & S1 & S2 & S3 & S4). rewrite S1. exists c3, u3. split; [done|]. split; [rewrite S3, R3; lia|].
      set (l2 := tch (n_key p.2) a t1 l1) in *.
      assert (F1 : filter (fun q => n_key q.2 <> n_key p.2) l2 = filter (fun q => n_key q.2 <> n_key p.2) l1).
      { unfold l2, touch. clear. induction l1 as [|x l1 IH]; [done|]. csimpl. rewrite !filter_cons. destruct (decide (n_key x.2 = n_key p.2)) as [E|E]; cbn [snd n_key].
        - rewrite !decide_False by (intros X; by apply X). done.
        - rewrite !decide_True by done. by rewrite IH. }
      assert (Nk1 : NoDup (n_key <$> l1.*2)).
      { pose proof (ar_keys H) as Nk. pose proof (stale_fresh idle (clk t) l) as SP. fold l1 in SP. rewrite <- SP in Nk. rewrite !fmap_app in Nk. by apply NoDup_app in Nk as (_ & _ & ?). }
      assert (F2 : filter (fun q => n_key q.2 = n_key p.2) l2 = [(p.1, Ent (n_key p.2) a (n_last p.2))]).
      { transitivity ((fun q => (q.1, Ent (n_key p.2) a (n_last q.2))) <$> filter (fun q => n_key q.2 = n_key p.2) l1).
        - unfold l2, touch. clear. induction l1 as [|x l1 IH]; [done|]. csimpl. rewrite !filter_cons. destruct (decide (n_key x.2 = n_key p.2)) as [E|E]; cbn [snd n_key].
          + rewrite decide_True by done. csimpl. by rewrite IH.
          + rewrite decide_False by done. done.
        - by rewrite (key_filter Nk1 Hp). }
      rewrite F1 in S2. rewrite F2 in S4. split; [done|]. rewrite S4. cbn [p_items]. by rewrite E4.
    + exists c2. eexists. split; [reflexivity|]. split; [rewrite R3; lia|]. split; [exact R2|]. cbn [p_items]. by rewrite E4.
  - left. split; [done|]. destruct (agg_miss gone Hmono Hpos H Hk) as (c' & u' & E1 & E2 & E3 & E4).
    rewrite E1. cbn [obind fst snd].
    destruct (NewOperationAggregator ord md5 kinds o) as [a| | |] eqn:Ea; cbn [obind]; [|by intros ? ?..].
    destruct (agg_insert gone Hmono Hpos a E2 Hk) as (c2 & u2 & I1 & I2 & I3 & I4 & I5).
    cbn [alloc fst snd]. cbn [alloc snd] in I1. rewrite I1.
    exists c2, u2, (p_next u'). split; [done|]. unfold insert_last in I2. rewrite E3 in I2. split; [exact I2|]. split; [rewrite I3, E3; unfold insert_reads; fold t t1; lia|].
    by rewrite I4, E4.
Qed.
End proofs.
