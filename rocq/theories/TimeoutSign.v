(** The timeout is never negative (proved without the real numbers). *)
From Verif Require Import Proto Distribution Timeout.
From Coq Require Import SpecFloat.
Lemma round_sign p e s m x l : match binary_round_aux p e s m x l with S754_zero b => b = s | S754_finite b _ _ => b = s | S754_infinity b => b = s | S754_nan => True end.
Proof. unfold binary_round_aux. destruct (shr_fexp p e m x l) as [m1 e1]. destruct (shr_fexp p e _ e1 _) as [m2 e2]. destruct (shr_m m2); try done. by destruct (_ <=? _). Qed.
Lemma cycles_nonneg ms n : cycles_of_ms ms = Ok (Some n) -> 0 <= n.
Proof.
  unfold cycles_of_ms. generalize (seconds_of_ms ms). intros s. unfold cycles_of_seconds.
  destruct (flt s f_zero || f_isinf s) eqn:E; [done|]. destruct (fle _ _); [intros H; by inversion H|].
  unfold f_to_int64. destruct (f_trunc _) as [t|] eqn:Et; [|done]. destruct (in_int64 t); [|done]. cbn [obind]. intros H. inversion H; subst t; clear H.
  destruct s as [b|b| |b m e]; try done.
  - assert (fmul (S754_zero b) (f_of_int Frequency) = S754_zero (xorb b false)) as Q by (vm_compute; by destruct b). rewrite Q in Et. cbn in Et. by inversion Et.
  - destruct b.
    { vm_compute in E. done. }
    set (f := f_of_int Frequency) in Et. vm_compute in f. unfold f in Et. unfold fmul, SFmul in Et.
    match type of Et with f_trunc (binary_round_aux ?p ?e ?s ?m ?x ?l) = _ => pose proof (round_sign p e s m x l) as Q; destruct (binary_round_aux p e s m x l) as [b|b| |b m' e'] end; try done.
    + cbn in Et. by inversion Et.
    + cbn [xorb] in Q. subst b. cbn [f_trunc] in Et. inversion Et; subst n. destruct (0 <=? e') eqn:Ee; [apply Z.leb_le in Ee; lia|].
      apply Z.leb_gt in Ee. apply Z.div_pos; [lia|]. apply Z.pow_pos_nonneg; lia.
Qed.
