(** Concrete runs of the client, for the examples and the counterexamples of PropsClient.v. *)
From Verif Require Import Base Proto Signature OpAgg Lru Timeout Agg CheckAgg CheckAggSpec QuotaAgg QuotaAggSpec ReportAgg ReportAggSpec Client ClientSpec ClientOptions.
From Verif Require Import PropsCheck PropsQuota PropsReport.
From stdpp Require Import gmap list.
Local Open Scope Z_scope.

(** A step with a given choice, or the steps of a thread until it is in the user's code, finished or blocked. *)
Inductive act := Do (t : nat) (ch : Client.choice) | Run (t n : nat).
Definition next_choice (i : instr) : option Client.choice := match i with IUser => None | IBody _ _ => Some (Fuel 40) | _ => Some Go end.

Section run.
Variable clk : kind -> nat -> Z.
Variable cf : client_config.
Notation step := (step true default_order ck_md5 clk cf).
Notation reach := (reach true default_order ck_md5 clk cf).
Fixpoint run_thread (t n : nat) (s : list (list instr) * world) : list (list instr) * world :=
  match n with
  | O => s
  | S n =>
    match s.1 !! t with
    | Some (i :: _) =>
      match next_choice i with
      | Some ch => match step t ch s with Some s' => run_thread t n s' | None => s end
      | None => s
      end
    | _ => s
    end
  end.
Fixpoint play (acts : list act) (s : list (list instr) * world) : option (list (list instr) * world) :=
  match acts with
  | [] => Some s
  | Do t ch :: acts => match step t ch s with Some s' => play acts s' | None => None end
  | Run t n :: acts => play acts (run_thread t n s)
  end.
Definition run (acts : list act) : option (list (list instr) * world) :=
  match new_aggs default_order clk cf with Ok a => play acts ([], new_world cf a) | _ => None end.
Lemma run_thread_reach t n s : reach s -> reach (run_thread t n s).
Proof.
  revert s. induction n as [|n IH]; intros s R; [done|]. cbn. destruct (s.1 !! t) as [[|i rest]|]; try done. destruct (next_choice i) as [ch|]; [|done].
  destruct (step t ch s) as [s'|] eqn:E; [|done]. apply IH. by econstructor.
Qed.
Lemma play_reach acts s s' : reach s -> play acts s = Some s' -> reach s'.
Proof.
  revert s. induction acts as [|[t ch|t n] acts IH]; intros s R; cbn.
  - by intros [= <-].
  - destruct (step t ch s) as [s1|] eqn:E; [|done]. apply IH. by econstructor.
  - apply IH. by apply run_thread_reach.
Qed.
Lemma run_reach acts s : run acts = Some s -> reach s.
Proof. unfold run. destruct (new_aggs _ _ _) as [a| | |] eqn:E; try done. apply play_reach. by constructor. Qed.
Definition nowhere : list (list instr) * world := ([], World (Aggs (CheckAgg None (Pool ∅ 0%nat [])) [] (QuotaAgg None (Pool ∅ 0%nat []) false) [] (ReportAgg None (Pool ∅ 0%nat [])) []) (fun _ => None) (fun _ => None) (fun _ => true) [] (fun _ => 0) true false false 0 0 [] [] None).
Definition after (acts : list act) : list (list instr) * world := default nowhere (run acts).
Lemma after_reach acts : run acts <> None -> reach ((after acts).1, (after acts).2).
Proof. intros H. unfold after. destruct (run acts) as [s|] eqn:E; [|done]. cbn. rewrite <- surjective_pairing. by eapply run_reach. Qed.
End run.
Ltac cl_reaches := apply after_reach; vm_compute; discriminate.

Definition cl_cf : client_config := ClientConfig "svc" "cfg" default_check_options default_quota_options default_report_options None (fun _ => true) true.
Definition cl_check (id name : string) : api := Api (RqCheck (ck_req id name)) None false.
Definition cl_quota (id name : string) (n : Z) : api := Api (RqQuota (qk_req id name n)) None false.
Definition cl_report (ops : list operation) : api := Api (RqReport (rp_req ops)) None false.
(** The events in short: what happened, and the call, the transport call or the aggregator call it belongs to. *)
Definition brief (ev : event) : string * nat :=
  match ev with
  | EStart _ c _ => ("start", c)
  | EAgg _ KCheck n _ => ("check", n) | EAgg _ KQuota n _ => ("quota", n) | EAgg _ KReport n _ => ("report", n)
  | ECallback _ _ n _ => ("callback", n)
  | EDropped _ _ n _ => ("dropped", n)
  | EAggReturn _ _ n => ("agg_return", n)
  | ETransport _ i _ _ => ("send", i)
  | ECompleted _ i _ _ _ => ("completed", i)
  | EDone _ c _ _ => ("done", c)
  | EReturn _ c => ("return", c)
  | ETick t => ("tick", t) | EDestroy t => ("destroy", t) | EDisconnect t _ => ("disconnect", t) | EFreed t => ("freed", t)
  end%string.
