(** The report cache after a FlushAll: empty, and it stays so until the next report. *)
From Verif Require Import Base Proto Signature OpAgg OpAggSpec OpAggProofs Lru LruSim LruOps LruOps2 LruSpec Timeout TimeoutProofs TimeoutSign Agg AggCache OpGroups ReportAgg ReportAggSpec ReportAggProofs ReportAggInv ReportAggStep ReportAggClaims.
From stdpp Require Import gmap list.
Local Open Scope Z_scope.
Set Implicit Arguments.

Section drain.
Variable ord : hash_order.
Variable md5 : string -> string.
Variable clk : nat -> Z.
Variable cf : report_config.
Hypothesis Hclk : proper_clock clk.
Notation gone := (removed_report ord cf).
Notation mx := (ro_entries (rc_options cf)).
Notation step := (rstep ord md5 clk cf).
Notation reach := (rreach ord md5 clk cf).
Let Hmono := proj1 Hclk.
Let Hpos := proj2 Hclk.

Definition drained (st : report_agg) : Prop :=
  match ra_cache st with None => True | Some c => exists o, ARep clk mx (timeout_of o) false c (ra_pool st) [] end.
Lemma drained_flushall st h st' res : reach st h -> step RFlushAll st = Ok (st', res) -> drained st'.
Proof.
  intros R Hs. apply (reach_inv Hclk) in R as [_ R]. destruct st as [[c|] u]; cbn [ra_cache] in R.
  - destruct R as (o & G & fg & l & TL & L). destruct (live_step Hclk RFlushAll L Hs) as (c' & l' & G' & ng & tl & HA & HL).
    destruct HA as (E & HR & HA). unfold drained. rewrite E. exists o. assert (l' = []) as <-; [|done]. by apply HA.
  - cbn [rstep] in Hs. unfold FlushAll in Hs. cbn [ra_cache] in Hs. injection Hs as <- _. done.
Qed.
Lemma drained_step call st st' res : call = RFlush \/ call = RFlushAll -> drained st -> step call st = Ok (st', res) -> drained st' /\ rres_flushed res = [].
Proof.
  intros Hc D Hs. destruct st as [[c|] u]; unfold drained in D; cbn [ra_cache ra_pool] in D.
  - destruct D as (o & D). destruct Hc as [-> | ->]; cbn [rstep] in Hs.
    + unfold Flush in Hs. cbn [ra_cache ra_pool] in Hs. change (OnCacheEntryDelete ord cf) with (passive (delete_with gone)) in Hs.
      destruct (agg_expire gone Hmono Hpos (ar_items [] D)) as (c' & u' & E1 & E2 & E3 & E4). rewrite E1 in Hs. cbn [obind finish fst snd] in Hs.
      assert (forall now, fresh_cells (timeout_of o) now [] = ([] : list (nat * ent opagg)) /\ stale_cells (timeout_of o) now [] = ([] : list (nat * ent opagg))) as En.
      { intros now. unfold fresh_cells, stale_cells. by destruct (0 <=? timeout_of o). }
      rewrite (proj1 (En _)) in E2. rewrite (proj2 (En _)) in E4. cbn in E4.
      injection Hs as <- <-. split; [|done]. unfold drained. cbn [ra_cache ra_pool]. exists o. by apply (ar_items []) in E2.
    + unfold FlushAll in Hs. cbn [ra_cache ra_pool] in Hs. change (OnCacheEntryDelete ord cf) with (passive (delete_with gone)) in Hs.
      destruct (agg_removeall gone ord (ar_items [] D)) as (c' & u' & gs & E1 & E0 & E2 & E3 & E4). rewrite E1 in Hs. cbn [obind finish fst snd] in Hs.
      apply Permutation_nil_r in E0. subst gs. injection Hs as <- <-. split; [|by rewrite E4]. unfold drained. cbn [ra_cache ra_pool]. exists o. by apply (ar_items []) in E2.
  - assert (ra_cache (ReportAgg None u) = None) as En by done. destruct (off_step ord md5 clk cf call _ En) as (res' & E1 & E2 & _). rewrite E1 in Hs. injection Hs as <- <-. done.
Qed.
(** All that was accepted has been flushed. *)
Lemma drained_settles st h : reach st h -> drained st ->
  exists gs, Forall2 (merges ord md5 cf) gs (ops_of (rflushed h)) /\ split_into ord md5 (accepted h) gs.
Proof.
  intros R D. destruct (books Hclk R) as (sent & pg & st' & fl & E & H1 & H2 & H3 & _).
  destruct (drained_step st (st' := st') (res := ReportResult SOk fl) (call := RFlushAll)) as [_ Hf]; [by right|exact D|exact E|]. cbn in Hf. subst fl. inversion H2; subst. exists sent. rewrite app_nil_r in H3. by split.
Qed.
End drain.
