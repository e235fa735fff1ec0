(** Invariants of the client, part 9: the statistics. *)
From Verif Require Import Base Proto Signature OpAgg Lru Timeout Agg CheckAgg CheckAggSpec QuotaAgg QuotaAggSpec ReportAgg ReportAggSpec Client ClientSpec ClientInv ClientCalls ClientStage ClientFlush ClientLocks.
From stdpp Require Import gmap list.
Local Open Scope Z_scope.
Set Implicit Arguments.

Section count.
Variable debug : bool.
Variable ord : hash_order.
Variable md5 : string -> string.
Variable clk : kind -> nat -> Z.
Variable cf : client_config.
Notation reach := (reach debug ord md5 clk cf).
Notation agg_step := (agg_step debug ord md5 clk cf).
Notation estep := (estep debug ord md5 clk cf).
Implicit Types (w : world) (t : nat) (i : instr) (ths : list (list instr)) (tr : list event).

Definition expected (x : counter) tr : Z :=
  match x with
  | TotalCalled k => calls_made k tr
  | ByFlush k => Z.of_nat (length (sent_by_flush k tr))
  | InFlight k => Z.of_nat (length (sent_for_calls k tr))
  | ReportOperations => Z.of_nat (length (report_operations (sent_for_calls KReport tr ++ sent_by_flush KReport tr)))
  end.
(** What one event adds to the expected value. *)
Definition adds (x : counter) (ev : event) : Z :=
  match ev, x with
  | EStart _ _ a, TotalCalled k => if decide (kind_of (ap_request a) = k) then 1 else 0
  | ETransport _ _ (FromFlush k' _) q, ByFlush k => if decide (k' = k) then 1 else 0
  | ETransport _ _ (FromCall _) q, InFlight k => if decide (kind_of q = k) then 1 else 0
  | ETransport _ _ _ q, ReportOperations => operations_in q
  | _, _ => 0
  end.
Definition well_typed ev : Prop := match ev with ETransport _ _ (FromFlush k _) q => kind_of q = k | _ => True end.
Lemma calls_made_snoc k tr ev : calls_made k (tr ++ [ev]) = calls_made k tr + match ev with EStart _ _ a => if decide (kind_of (ap_request a) = k) then 1 else 0 | _ => 0 end.
Proof. unfold calls_made. rewrite bind_app, app_length. destruct ev; cbn; try lia. destruct (decide _); cbn; lia. Qed.
Lemma for_calls_snoc k tr ev : sent_for_calls k (tr ++ [ev]) = sent_for_calls k tr ++ match ev with ETransport _ _ (FromCall _) q => if decide (kind_of q = k) then [q] else [] | _ => [] end.
Proof. unfold sent_for_calls. rewrite bind_app. cbn. by rewrite app_nil_r. Qed.
Lemma by_flush_snoc k tr ev : sent_by_flush k (tr ++ [ev]) = sent_by_flush k tr ++ match ev with ETransport _ _ (FromFlush k' _) q => if decide (k' = k) then [q] else [] | _ => [] end.
Proof. unfold sent_by_flush. rewrite bind_app. cbn. by rewrite app_nil_r. Qed.
Lemma operations_app l1 l2 : report_operations (l1 ++ l2) = report_operations l1 ++ report_operations l2.
Proof. unfold report_operations. by rewrite bind_app. Qed.
Lemma expected_snoc x tr ev : well_typed ev -> expected x (tr ++ [ev]) = expected x tr + adds x ev.
Proof.
  intros T. destruct x as [k|k|k|]; cbn [expected].
  - rewrite calls_made_snoc. by destruct ev as [| | | | | ? ? [|] ?| | | | | | |].
  - rewrite by_flush_snoc, app_length. destruct ev as [| | | | | ? ? [|] ?| | | | | | |]; cbn; try lia. destruct (decide _); cbn; lia.
  - rewrite for_calls_snoc, app_length. destruct ev as [| | | | | ? ? [|] ?| | | | | | |]; cbn; try lia. destruct (decide _); cbn; lia.
  - rewrite for_calls_snoc, by_flush_snoc, !operations_app, !app_length. destruct ev as [| | | | | ? ? [|] q| | | | | | |]; cbn [adds]; try (cbn; lia).
    + destruct q; cbn [kind_of]; [rewrite decide_False by done|rewrite decide_False by done|rewrite decide_True by done]; cbn; rewrite ?app_nil_r; lia.
    + cbn in T. subst k. destruct q; cbn [kind_of]; [rewrite decide_False by done|rewrite decide_False by done|rewrite decide_True by done]; cbn; rewrite ?app_nil_r; lia.
Qed.

(** What an instruction on a stack still has to add to the counter, less what it has to add to the trace. *)
Definition owed (x : counter) i : Z :=
  match i with
  | ICount _ x' n => if decide (x' = x) then n else 0
  | ITransport o q _ => - adds x (ETransport 0 0 o q)
  | _ => 0
  end.
Definition owes x st : Z := sumZ (owed x <$> st).
Lemma owes_app x l1 l2 : owes x (l1 ++ l2) = owes x l1 + owes x l2.
Proof. unfold owes. by rewrite fmap_app, sumZ_app. Qed.
Lemma owes_flush x k n qs : owes x (IFlush k n <$> qs) = 0.
Proof. induction qs as [|q qs IH]; [done|]. rewrite fmap_cons. unfold owes in *. rewrite fmap_cons. cbn. exact IH. Qed.
Definition total x ths : Z := sumZ (owes x <$> ths).
Lemma total_step x ths t i rest new : ths !! t = Some (i :: rest) -> total x (<[t := new ++ rest]> ths) = total x ths + owes x new - owed x i.
Proof.
  intros E. unfold total. rewrite (insert_take_drop ths t (new ++ rest)) by (by eapply lookup_lt_Some).
  rewrite <- (take_drop_middle ths t (i :: rest) E) at 3. rewrite !fmap_app, !fmap_cons, !sumZ_app.
  assert (forall z l, sumZ (z :: l) = z + sumZ l) as Hs by done. assert (owes x (i :: rest) = owed x i + owes x rest) as Ho by done. rewrite !Hs, owes_app, Ho. lia.
Qed.
Lemma counted ths w x : reach (ths, w) -> w_crash w = None -> w_count w x + total x ths = expected x (w_trace w).
Proof.
  refine (reach_ind' (fun ths w => w_crash w = None -> w_count w x + total x ths = expected x (w_trace w)) _ _ _ (ths := ths) (w := w)); clear ths w.
  - intros a _ _. by destruct x.
  - intros ths w _ IH _ Hc. unfold total in *. rewrite fmap_app, sumZ_app. cbn. rewrite <- (IH Hc). lia.
  - intros ths w t i rest new w' R IH Hc Ht E Hc'. specialize (IH Hc). rewrite (total_step x _ _ new Ht).
    assert (typed t i) as T by (eapply (reach_typed R); [done|apply elem_of_list_here]).
    destruct E; wsimpl; try done; try (rewrite expected_snoc by done); try (unfold owes; cbn; lia).
    + assert (owes x (api_code (w_calls w) a ++ [IUser]) = adds x (EStart t (w_calls w) a)) as Ho; [|rewrite Ho; cbn [owed]; lia].
      unfold api_code, owes. destruct (ap_blocking a); cbn [app fmap list_fmap owed sumZ foldr]; destruct x as [k|k|k|]; cbn [adds].
      all: repeat destruct (decide _); try congruence; try lia.
    + unfold fset, owes. cbn [fmap list_fmap sumZ foldr owed]. destruct (decide (x = c)) as [->|Ne]; [rewrite decide_True by done; lia|]. rewrite decide_False by congruence. lia.
    + rewrite !owes_app, owes_flush. assert (owes x (match u with Some (c, a0) => [IAfter c a0 (length (calls (call_kind call) (w_aggs w))) r] | None => [] end) = 0) as -> by (by destruct u as [[]|]).
      unfold owes. cbn. lia.
    + cbn in T. assert (owes x (callback_code k n q) = 0) as ->; [|cbn [adds owed]; lia]. unfold callback_code, owes.
      destruct q; cbn [app fmap list_fmap owed sumZ foldr]; destruct x as [k'|k'|k'|]; cbn [adds operations_in]; repeat destruct (decide _); try congruence; try lia.
    + assert (owes x (after_code c a r) = 0) as ->; [|cbn [owed]; lia]. unfold after_code, owes. destruct (status_eqb _ _); [|done].
      destruct (ap_request a); cbn [app fmap list_fmap owed sumZ foldr]; destruct x as [k'|k'|k'|]; cbn [adds operations_in kind_of]; repeat destruct (decide _); try congruence; try lia.
    + rewrite expected_snoc by (destruct o; [done|apply T]). unfold owes. cbn [fmap list_fmap sumZ foldr owed]. destruct o, x; cbn [adds]; lia.
    + rewrite !expected_snoc by (done || (destruct o; [done|apply T])). unfold owes. cbn [fmap list_fmap sumZ foldr owed]. destruct o, x; cbn [adds]; lia.
    + assert (owes x (completed_code f s r) = 0) as ->; [|cbn [owed]; lia]. destruct f; try done; cbn; by destruct (status_eqb _ _).
Qed.
(** With nobody inside the client the counters are exact. *)
Lemma quiet_total x ths : nothing_running ths -> total x ths = 0.
Proof.
  intros H. unfold total. induction H as [|st ths Hs H IH]; [done|]. rewrite fmap_cons. change (owes x st + sumZ (owes x <$> ths) = 0). rewrite IH.
  enough (owes x st = 0) as -> by done. clear -Hs. induction Hs as [|i st -> Hs IH]; [done|]. exact IH.
Qed.
Lemma counted_exactly ths w x : reach (ths, w) -> w_crash w = None -> nothing_running ths -> w_count w x = expected x (w_trace w).
Proof. intros R Hc Hn. pose proof (counted x R Hc) as H. rewrite quiet_total in H by done. lia. Qed.
End count.
