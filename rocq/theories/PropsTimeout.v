(** C36: timeouts.  C37: linked lists. *)
From Verif Require Import Base LinkedList LinkedListProofs.
From Verif Require Import Proto Distribution Float64Proofs Timeout TimeoutProofs.
From stdpp Require Import gmap list.
Open Scope Z_scope.

(** ** C36 *)
Theorem C36_within_a_microsecond : forall m, 0 <= m <= int32_max ->
  exists n, cycles_of_ms m = Ok (Some n) /\ 1000 * m - 1 <= n <= 1000 * m /\ 0 <= n.
Proof. exact timeout_accurate. Qed.
Print Assumptions C36_within_a_microsecond.
Theorem C36_negative_means_none : forall m, int32_min <= m < 0 -> cycles_of_ms m = Ok None.
Proof. intros m [H1 H2]. exact (seconds_negative m H1 H2). Qed.
Print Assumptions C36_negative_means_none.
Theorem C36_conversion_defined : forall s, valid s -> is_nan s = false -> exists r, cycles_of_seconds s = Ok r /\
  match r with None => flt s f_zero = true \/ f_isinf s = true | Some n => 0 <= n <= int64_max end.
Proof. exact timeout_defined. Qed.
Print Assumptions C36_conversion_defined.
(** The conversion is sometimes one microsecond short, never exact for all inputs. *)
Example C36_example : cycles_of_ms 1000 = Ok (Some 1000000) /\ cycles_of_ms 1001 = Ok (Some 1000999) /\ cycles_of_ms (-1) = Ok None /\
  cycles_of_ms int32_max = Ok (Some 2147483647000) /\ valid f_one /\ is_nan f_one = false.
Proof. vm_compute. done. Qed.

(** ** C37 *)
Theorem C37_links_never_break : forall m s o, lreach m s -> lawful_link o s -> exists m', pstep o m = Ok m'.
Proof. exact list_progress. Qed.
Print Assumptions C37_links_never_break.
Theorem C37_pointers_agree_with_lists : forall m s, lreach m s ->
  (forall a x b, a ++ x :: b ∈ r_rings s -> forward m x = Some (b ++ a) /\ backward m x = Some (rev (b ++ a)) /\ PIsLinked x m = Ok true) /\
  (forall x, x ∈ r_loose s -> PIsLinked x m = Ok false).
Proof. exact list_walks. Qed.
Print Assumptions C37_pointers_agree_with_lists.
(** head_ is 0; link 1, 2, 3, unlink 2, then make 2 and 4 a second list. *)
Definition ex_links : list lop :=
  [LNew 0%nat; LSelf 0%nat; LNew 1%nat; LLink 1%nat 0%nat; LNew 2%nat; LLink 2%nat 0%nat; LNew 3%nat; LLink 3%nat 0%nat;
   LUnlink 2%nat; LSelf 2%nat; LNew 4%nat; LLink 4%nat 2%nat].
Fixpoint ex_play (ops : list lop) (m : gmap nat node) (s : rings) : outcome (gmap nat node * rings) :=
  match ops with [] => Ok (m, s) | o :: ops' => let! m' := pstep o m in ex_play ops' m' (rstep o s) end.
Example C37_example : exists m, lreach m (Rings [[2%nat; 4%nat]; [0%nat; 3%nat; 1%nat]] []) /\
  forward m 0 = Some [3%nat; 1%nat] /\ backward m 0 = Some [1%nat; 3%nat] /\ forward m 2 = Some [4%nat].
Proof.
  assert (H : forall ops m s m' s', lreach m s -> ex_play ops m s = Ok (m', s') ->
    (forall pre o post, ops = pre ++ o :: post -> lawful_link o (foldl (fun s o => rstep o s) s pre)) -> lreach m' s').
  { induction ops as [|o ops IH]; intros m s m' s' R E L; cbn in E; [by injection E as <- <-|].
    destruct (pstep o m) as [m1|?| |] eqn:Eo; try discriminate. cbn in E. apply (IH m1 (rstep o s)); [|done|].
    - eapply lreach_step; [exact R| |exact Eo]. by apply (L [] o ops).
    - intros pre p post ->. by apply (L (o :: pre) p post). }
  eexists. split; [|split; [|split]].
  - eapply (H ex_links ∅ (Rings [] [])); [constructor|vm_compute; reflexivity|].
    intros pre o post E. unfold ex_links in E.
    repeat (destruct pre as [|? pre]; [injection E as <- <-; cbn [lawful_link]; unfold on_list; rewrite ?elem_of_list_In; vm_compute; intuition lia|injection E as <- E]).
    by destruct pre.
  - vm_compute. done.
  - vm_compute. done.
  - vm_compute. done.
Qed.
