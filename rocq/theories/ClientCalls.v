(** Invariants of the client, part 2: every call is in exactly one place until it is done. *)
From Verif Require Import Base Proto Signature OpAgg Lru Timeout Agg CheckAgg CheckAggSpec QuotaAgg QuotaAggSpec ReportAgg ReportAggSpec Client ClientSpec ClientInv.
From stdpp Require Import gmap list.
Local Open Scope Z_scope.
Set Implicit Arguments.

Ltac wsimpl := cbn [w_aggs w_cache w_callback w_connected w_count w_alive w_closing w_timer w_sends w_open w_crash w_trace w_pending w_calls log
  set_crash set_open set_calls set_pending set_closing set_count set_cache set_aggs set_callback set_sends set_connected set_timer set_alive].

Section calls.
Variable debug : bool.
Variable ord : hash_order.
Variable md5 : string -> string.
Variable clk : kind -> nat -> Z.
Variable cf : client_config.
Notation reach := (reach debug ord md5 clk cf).
Notation agg_step := (agg_step debug ord md5 clk cf).
Notation estep := (estep debug ord md5 clk cf).
Notation settled := (settled cf).
Implicit Types (w : world) (t : nat) (i : instr) (ths : list (list instr)) (tr : list event).

Definition ptok (p : nat * completion) : list nat := call_in p.2.

Lemma started_snoc tr ev : started (tr ++ [ev]) = started tr ++ match ev with EStart _ c _ => [c] | _ => [] end.
Proof. unfold started. rewrite bind_app. cbn. by rewrite app_nil_r. Qed.
Lemma done_snoc tr ev : done (tr ++ [ev]) = done tr ++ match ev with EDone _ c _ _ => [c] | _ => [] end.
Proof. unfold done. rewrite bind_app. cbn. by rewrite app_nil_r. Qed.
Lemma sent_snoc tr ev : sent (tr ++ [ev]) = sent tr ++ match ev with ETransport _ i _ _ => [i] | _ => [] end.
Proof. unfold sent. rewrite bind_app. cbn. by rewrite app_nil_r. Qed.
Lemma answered_snoc tr ev : answered (tr ++ [ev]) = answered tr ++ match ev with ECompleted _ i _ _ _ => [i] | _ => [] end.
Proof. unfold answered. rewrite bind_app. cbn. by rewrite app_nil_r. Qed.
Lemma story_snoc c tr ev : story c (tr ++ [ev]) = story c tr ++ (if concerns c ev then [ev] else []).
Proof. unfold story. rewrite bind_app. cbn. by rewrite app_nil_r. Qed.

Lemma delete_perm {A} (l : list A) p x : l !! p = Some x -> l ≡ₚ x :: delete p l.
Proof. apply delete_Permutation. Qed.
Lemma tok_flush k n qs : (IFlush k n <$> qs) ≫= tok = [].
Proof. induction qs as [|q qs IH]; [done|]. rewrite fmap_cons, bind_cons. done. Qed.

(** Every call that was made is waited for in exactly one place, or done. *)
Lemma one_place' ths w : reach (ths, w) -> exists lost, lost ++ all tok ths ++ (w_pending w ≫= ptok) ++ done (w_trace w) ≡ₚ started (w_trace w) /\
  started (w_trace w) = seq 0 (w_calls w) /\ (w_crash w = None -> lost = []).
Proof.
  revert ths w. apply reach_ind'.
  - intros a _. by exists [].
  - intros ths w _ (lost & IH & IH2 & IH3) _. exists lost. by rewrite all_spawn.
  - intros ths w t i rest new w' _ (lost & IH & IH2 & IH3) Hc Ht E. rewrite (IH3 Hc) in IH. clear lost IH3. cbn [app] in IH.
    assert (exists lost, lost ++ (new ≫= tok) ++ (w_pending w' ≫= ptok) ++ done (w_trace w') ++ started (w_trace w) ≡ₚ
      tok i ++ (w_pending w ≫= ptok) ++ done (w_trace w) ++ started (w_trace w') /\ started (w_trace w') = seq 0 (w_calls w') /\ (w_crash w' = None -> lost = []))
      as (lost & H & H2 & H3).
    { clear IH Ht. destruct E; wsimpl; rewrite ?started_snoc, ?done_snoc, ?app_nil_r.
      all: try (exists []; split; [reflexivity|split; [done|done]]).
      - exists (tok i). cbn [mbind list_bind app]. by split.
      - exists []. split; [|split; [|done]].
        + unfold api_code. destruct (ap_blocking a); cbn; solve_Permutation.
        + rewrite IH2. by rewrite seq_S.
      - exists []. split; [|done]. cbn. rewrite (delete_perm _ _ H) at 2. cbn. solve_Permutation.
      - exists []. split; [|done]. by destruct u as [[c a]|].
      - exists []. split; [|done]. rewrite !bind_app, tok_flush. destruct u as [[c a']|]; done.
      - exists []. split; [|done]. unfold callback_code. destruct q; cbn; done.
      - exists []. split; [|done]. unfold after_code. destruct (status_eqb _ _); [destruct (ap_request a)|]; cbn; done.
      - exists []. split; [|done]. rewrite bind_app, bind_cons. unfold ptok at 2. cbn. rewrite app_nil_r. solve_Permutation.
      - exists []. split; [|done]. cbn. solve_Permutation.
      - exists []. split; [|done]. destruct f; cbn; try destruct (status_eqb s SOk); cbn; done.
      - exists []. split; [|done]. cbn. solve_Permutation. }
    exists lost. split; [|done]. pose proof (all_step tok _ _ new Ht) as P.
    apply (Permutation_app_inv_l (tok i ++ (w_pending w ≫= ptok) ++ done (w_trace w))).
    transitivity (lost ++ (new ≫= tok) ++ (w_pending w' ≫= ptok) ++ done (w_trace w') ++ all tok ths ++ (w_pending w ≫= ptok) ++ done (w_trace w)).
    + transitivity (lost ++ (w_pending w' ≫= ptok) ++ done (w_trace w') ++ (w_pending w ≫= ptok) ++ done (w_trace w) ++ (all tok ths ++ (new ≫= tok)));
        [rewrite <- P|]; solve_Permutation.
    + rewrite IH, H. solve_Permutation.
Qed.
Lemma one_place ths w : reach (ths, w) -> w_crash w = None -> all tok ths ++ (w_pending w ≫= ptok) ++ done (w_trace w) ≡ₚ started (w_trace w).
Proof. intros R H. destruct (one_place' R) as (lost & H1 & _ & H3). by rewrite (H3 H) in H1. Qed.
Lemma started_seq ths w : reach (ths, w) -> started (w_trace w) = seq 0 (w_calls w).
Proof. intros R. by destruct (one_place' R) as (lost & H1 & H2 & H3). Qed.
Lemma started_NoDup ths w : reach (ths, w) -> NoDup (started (w_trace w)).
Proof. intros R. rewrite (started_seq R). apply NoDup_seq. Qed.
Lemma done_sub ths w : reach (ths, w) -> NoDup (done (w_trace w)) /\ done (w_trace w) ⊆ started (w_trace w).
Proof.
  intros R. destruct (one_place' R) as (lost & H1 & _ & _). pose proof (started_NoDup R) as N. rewrite <- H1 in N.
  rewrite !NoDup_app in N. split; [apply N|]. intros x Hx. rewrite <- H1, !elem_of_app. auto.
Qed.

(** The same for the calls of the transports. *)
Lemma sent_seq ths w : reach (ths, w) -> sent (w_trace w) = seq 0 (w_sends w) /\ (w_pending w).*1 ++ answered (w_trace w) ≡ₚ sent (w_trace w).
Proof.
  revert ths w. apply reach_ind'; [by intros a _|done|].
  intros ths w t i rest new w' _ [IH IH2] _ _ E. destruct E; wsimpl; rewrite ?sent_snoc, ?answered_snoc, ?app_nil_r; try by split.
  - split; [done|]. rewrite <- IH2. rewrite (delete_perm _ _ H) at 2. cbn. solve_Permutation.
  - split; [by rewrite seq_S, IH|]. rewrite <- IH2, fmap_app. cbn. solve_Permutation.
  - rewrite ?sent_snoc, ?answered_snoc, ?app_nil_r. split; [by rewrite seq_S, IH|]. rewrite <- IH2. solve_Permutation.
Qed.
End calls.
