(** The age of the entry that the cache would drop next, with the arithmetic of the code. *)
From Verif Require Import Base Proto Lru LruSim LruOps LruOps2 LruSpec LruInv LruBooks LruStep LruProofs LruClaims LruOrder LinkedList LinkedListProofs LinkLay PLru PLruSpec PLruProofs PLruRest PLruClaims.
From stdpp Require Import gmap list.
Local Open Scope Z_scope.

(** simple_lru_cache_inl.h:65, 83 kSecToUsec and Frequency() *)
Definition kSecToUsec : Z := 1000000.
Definition Frequency : Z := kSecToUsec.
(** An int64_t result, undefined on overflow. *)
Definition int64 (x : Z) : outcome Z := if in_int64 x then Ok x else UB SignedOverflow.
(** simple_lru_cache_inl.h:961-967 AgeOfLRUItemInMicroseconds.  ([PAgeOfLRUItem] in PLru.v leaves out the product and the quotient.)
    Reading the clock changes nothing else, so the result is only the answer. *)
Definition AgeOfLRUItemInMicroseconds {V} (clk : nat -> Z) (p : plru V) : outcome Z :=
  let! x := prev_ptr 0 p in
  match x with
  | O => Ok 0
  | S i =>
    let! e := pload i p in
    let! d := int64 (p_now clk p - e_last e) in
    let! m := int64 (kSecToUsec * d) in
    Ok (Z.quot m Frequency)
  end.

Section age.
Context {V : Type} `{!EqDecision V}.
Variable clk : nat -> Z.
Variable ord : hash_order.
Hypothesis clock : proper_clock clk.

Lemma age_last cf (p : plru V) h : preach clk ord cf p h -> match last (evictable (cf_lru cf) (books_of clk cf h)) with
  | None => AgeOfLRUItemInMicroseconds clk p = Ok 0
  | Some x => exists t, last_use x (books_of clk cf h) = Some t /\ t <= clk (p_tick p) /\
      AgeOfLRUItemInMicroseconds clk p = if clk (p_tick p) - t <=? 9223372036854 then Ok (clk (p_tick p) - t) else UB SignedOverflow
  end.
Proof.
  intros Hp. destruct (reach_of clock Hp) as (c & Hr & l & D & Ec & W). destruct (reach_good clock Hr) as (s & G). rewrite (evictable_is G).
  destruct G as ((L & P & Dl & A & T) & I & _). pose proof (ab_list A) as E1. rewrite Ec in E1. cbn [shape l_list] in E1.
  unfold AgeOfLRUItemInMicroseconds. rewrite (tail_ptr W). cbn [obind]. rewrite E1, (ab_lst A), !fmap_last.
  destruct (last L) as [[n e]|] eqn:El; cbn [fmap option_fmap option_map fst snd]; [|done].
  assert (Hin : (n, e) ∈ L) by (apply last_Some in El as [L' ->]; set_solver).
  assert (E : l_heap c !! n = Some e). { apply elem_of_map_to_list. rewrite (ab_heap A). apply elem_of_app. by left. }
  rewrite Ec in E. cbn in E. cbn [ptr]. unfold pload. rewrite E. cbn [obind].
  assert (Hc : e ∈ cached_elems s). { unfold cached_elems. apply elem_of_app. left. rewrite (ab_lst A). by apply (elem_of_list_fmap_1 snd) in Hin. }
  exists (e_last e). split; [by apply (inv_last_use I)|].
  pose proof (iv_times I _ (iv_stamps I e Hc)) as Ht. cbn in Ht. pose proof (ab_tick A) as Et. rewrite Ec in Et. cbn in Et.
  assert (Hle : clk (pred (q_tick s)) <= clk (p_tick p)) by (apply (proj1 clock); lia).
  split; [lia|]. unfold p_now, int64, in_int64, int64_min, int64_max, kSecToUsec, Frequency, kSecToUsec. set (d := clk (p_tick p) - e_last e) in *. assert (0 <= d) by lia.
  destruct (Z.leb_spec d 9223372036854) as [Hd|Hd].
  - rewrite (proj2 (Z.leb_le (-9223372036854775808) d)), (proj2 (Z.leb_le d 9223372036854775807)) by lia. cbn [andb obind].
    rewrite (proj2 (Z.leb_le _ (1000000 * d))), (proj2 (Z.leb_le (1000000 * d) _)) by lia. cbn [andb obind]. f_equal. rewrite Z.mul_comm. apply Z.quot_mul. lia.
  - destruct ((-9223372036854775808 <=? d) && (d <=? 9223372036854775807)); [|done]. cbn [obind].
    rewrite (proj2 (Z.leb_gt (1000000 * d) 9223372036854775807)) by lia. by rewrite andb_false_r.
Qed.
End age.
