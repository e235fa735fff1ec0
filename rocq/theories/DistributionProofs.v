From Coq Require Import QArith.
From Verif Require Import Proto Distribution DistributionSpec.
Open Scope Z_scope.

(** ** Order of doubles *)
Definition fkey (x : double) : Z * Z * Z :=
  match x with
  | S754_nan => (0, 0, 0)
  | S754_infinity s => (if s then -2 else 2, 0, 0)
  | S754_zero _ => (0, 0, 0)
  | S754_finite s m e => if s then (-1, - e, - Z.pos m) else (1, e, Z.pos m)
  end.
Definition klt (a b : Z * Z * Z) : Prop :=
  a.1.1 < b.1.1 \/ a.1.1 = b.1.1 /\ (a.1.2 < b.1.2 \/ a.1.2 = b.1.2 /\ a.2 < b.2).
Definition kle (a b : Z * Z * Z) : Prop := ~ klt b a.

Lemma flt_klt x y : is_nan x = false -> is_nan y = false -> (flt x y = true <-> klt (fkey x) (fkey y)).
Proof.
  unfold flt, SFltb, SFcompare, klt.
  destruct x as [s|s| |s m e], y as [s'|s'| |s' m' e']; cbn [is_nan fkey]; try discriminate; intros _ _;
    try destruct s; try destruct s'; cbn [fst snd]; try (split; [discriminate || lia| (reflexivity || lia)]).
  all: change (Pos.compare_cont Eq m m') with (Pos.compare m m').
  all: destruct (Z.compare_spec e e'); subst; try (split; [discriminate || lia| (reflexivity || lia)]).
  all: destruct (Pos.compare_spec m m'); subst; cbn; (split; [discriminate || lia| (reflexivity || lia)]).
Qed.
Lemma fle_kle x y : is_nan x = false -> is_nan y = false -> (fle x y = true <-> kle (fkey x) (fkey y)).
Proof.
  unfold fle, SFleb, SFcompare, kle, klt.
  destruct x as [s|s| |s m e], y as [s'|s'| |s' m' e']; cbn [is_nan fkey]; try discriminate; intros _ _;
    try destruct s; try destruct s'; cbn [fst snd]; try (split; [discriminate || lia| (reflexivity || lia)]).
  all: change (Pos.compare_cont Eq m m') with (Pos.compare m m').
  all: destruct (Z.compare_spec e e'); subst; try (split; [discriminate || lia| (reflexivity || lia)]).
  all: destruct (Pos.compare_spec m m'); subst; cbn; (split; [discriminate || lia| (reflexivity || lia)]).
Qed.
Lemma feq_keq x y : is_nan x = false -> is_nan y = false -> (feq x y = true <-> kle (fkey x) (fkey y) /\ kle (fkey y) (fkey x)).
Proof.
  unfold feq, SFeqb, SFcompare, kle, klt.
  destruct x as [s|s| |s m e], y as [s'|s'| |s' m' e']; cbn [is_nan fkey]; try discriminate; intros _ _;
    try destruct s; try destruct s'; cbn [fst snd]; try (split; [discriminate || lia| (reflexivity || lia)]).
  all: change (Pos.compare_cont Eq m m') with (Pos.compare m m').
  all: destruct (Z.compare_spec e e'); subst; try (split; [discriminate || lia| (reflexivity || lia)]).
  all: destruct (Pos.compare_spec m m'); subst; cbn; (split; [discriminate || lia| (reflexivity || lia)]).
Qed.
Lemma flt_nan x y : flt x y = true -> is_nan x = false /\ is_nan y = false.
Proof. unfold flt, SFltb. by destruct x, y. Qed.
Lemma fle_nan x y : fle x y = true -> is_nan x = false /\ is_nan y = false.
Proof. unfold fle, SFleb. by destruct x, y. Qed.

Lemma flt_false x y : is_nan x = false -> is_nan y = false -> flt x y = false -> fle y x = true.
Proof.
  intros Hx Hy H. apply fle_kle; [done..|]. intros K. apply flt_klt in K; [congruence|done..].
Qed.
Lemma fle_false x y : is_nan x = false -> is_nan y = false -> fle x y = false -> flt y x = true.
Proof.
  intros Hx Hy H. apply flt_klt; [done..|].
  destruct (decide (flt y x = true)) as [E|E]; [by apply flt_klt in E|].
  apply not_true_is_false in E. apply flt_false in E; [congruence|done..].
Qed.
Lemma flt_not_fle x y : flt x y = true -> fle y x = false.
Proof.
  intros H. destruct (flt_nan _ _ H) as [Hx Hy]. destruct (fle y x) eqn:E; [|done].
  apply fle_kle in E; [|done..]. apply flt_klt in H; [|done..]. by destruct (E H).
Qed.
Lemma fle_not_flt x y : fle x y = true -> flt y x = false.
Proof. intros H. destruct (flt y x) eqn:E; [|done]. apply flt_not_fle in E. congruence. Qed.
Lemma flt_fle x y : flt x y = true -> fle x y = true.
Proof.
  intros H. destruct (flt_nan _ _ H) as [Hx Hy]. apply flt_klt in H; [|done..]. apply fle_kle; [done..|].
  unfold kle, klt in *. lia.
Qed.
Lemma flt_trans x y z : flt x y = true -> flt y z = true -> flt x z = true.
Proof.
  intros H1 H2. destruct (flt_nan _ _ H1), (flt_nan _ _ H2).
  apply flt_klt in H1, H2; [|done..]. apply flt_klt; [done..|]. unfold klt in *. lia.
Qed.
Lemma fle_trans x y z : fle x y = true -> fle y z = true -> fle x z = true.
Proof.
  intros H1 H2. destruct (fle_nan _ _ H1), (fle_nan _ _ H2).
  apply fle_kle in H1, H2; [|done..]. apply fle_kle; [done..|]. unfold kle, klt in *. lia.
Qed.
Lemma flt_fle_trans x y z : flt x y = true -> fle y z = true -> flt x z = true.
Proof.
  intros H1 H2. destruct (flt_nan _ _ H1), (fle_nan _ _ H2).
  apply flt_klt in H1; [|done..]. apply fle_kle in H2; [|done..]. apply flt_klt; [done..|]. unfold kle, klt in *. lia.
Qed.
Lemma fle_flt_trans x y z : fle x y = true -> flt y z = true -> flt x z = true.
Proof.
  intros H1 H2. destruct (fle_nan _ _ H1), (flt_nan _ _ H2).
  apply fle_kle in H1; [|done..]. apply flt_klt in H2; [|done..]. apply flt_klt; [done..|]. unfold kle, klt in *. lia.
Qed.
Lemma fle_refl x : is_nan x = false -> fle x x = true.
Proof. intros H. apply fle_kle; [done..|]. unfold kle, klt. lia. Qed.

(** ** Machine arithmetic *)
Lemma add64_strict x y z : add64 Strict x y = Ok z -> z = x + y /\ int64_min <= z <= int64_max.
Proof.
  unfold add64, in_int64. destruct (_ && _) eqn:E; [|discriminate]. intros [= <-].
  apply andb_true_iff in E as [E1 E2]. apply Z.leb_le in E1, E2. lia.
Qed.
Lemma add64_cases x y : add64 Strict x y = Ok (x + y) \/ add64 Strict x y = UB SignedOverflow.
Proof. unfold add64. destruct (in_int64 _); auto. Qed.
Lemma add64_fits x y : int64_min <= x + y <= int64_max -> add64 Strict x y = Ok (x + y).
Proof. intros H. unfold add64, in_int64. rewrite (proj2 (Z.leb_le _ _)), (proj2 (Z.leb_le _ _)) by lia. done. Qed.
Lemma add32_ok x y z : add32 x y = Ok z -> z = x + y /\ int32_min <= z <= int32_max.
Proof.
  unfold add32, in_int32. destruct (_ && _) eqn:E; [|discriminate]. intros [= <-].
  apply andb_true_iff in E as [E1 E2]. apply Z.leb_le in E1, E2. lia.
Qed.
Lemma add32_fits x y : int32_min <= x + y <= int32_max -> add32 x y = Ok (x + y).
Proof. intros H. unfold add32, in_int32. rewrite (proj2 (Z.leb_le _ _)), (proj2 (Z.leb_le _ _)) by lia. done. Qed.

(** ** Buckets *)
Lemma sum_Z_cons x l : sum_Z (x :: l) = x + sum_Z l.
Proof. done. Qed.
Lemma sum_Z_app l1 l2 : sum_Z (l1 ++ l2) = sum_Z l1 + sum_Z l2.
Proof. induction l1 as [|x l1 IH]; [done|]. cbn [app]. rewrite !sum_Z_cons. lia. Qed.
Lemma sum_Z_replicate n : sum_Z (replicate n 0) = 0.
Proof. induction n; [done|]. cbn [replicate]. rewrite sum_Z_cons. lia. Qed.
Lemma sum_Z_insert l i c c' : l !! i = Some c -> sum_Z (<[i := c']> l) = sum_Z l - c + c'.
Proof.
  revert i. induction l as [|x l IH]; intros [|i] H; try discriminate; cbn in H.
  - injection H as ->. cbn [list_insert insert]. rewrite !sum_Z_cons. lia.
  - specialize (IH _ H). change (<[S i := c']> (x :: l)) with (x :: <[i := c']> l). rewrite !sum_Z_cons. lia.
Qed.

Lemma add_bucket_ok i delta b b' : add_bucket i delta b = Ok b' ->
  exists c, 0 <= i /\ b !! Z.to_nat i = Some c /\ b' = <[Z.to_nat i := c + delta]> b /\
    int64_min <= c + delta <= int64_max.
Proof.
  unfold add_bucket. destruct (Z.ltb_spec i 0); [discriminate|].
  destruct (b !! Z.to_nat i) as [c|]; [|discriminate]. destruct (add64 _ _ _) eqn:E; cbn; try discriminate.
  intros [= <-]. apply add64_strict in E as [-> ?]. eauto 10.
Qed.

Lemma merge_buckets_ok f t r : length f = length t -> merge_buckets f t = Ok r -> r = zip_with Z.add t f.
Proof.
  revert t r. induction f as [|x f IH]; intros [|y t] r Hl H; cbn in *; try discriminate.
  - by injection H as <-.
  - destruct (add64 Strict y x) eqn:E; cbn in H; try discriminate.
    destruct (merge_buckets f t) eqn:Em; cbn in H; try discriminate. injection H as <-.
    apply add64_strict in E as [-> _]. f_equal. apply IH; [lia|done].
Qed.
Lemma sum_Z_zip l1 l2 : length l1 = length l2 -> sum_Z (zip_with Z.add l1 l2) = sum_Z l1 + sum_Z l2.
Proof.
  revert l2. induction l1 as [|x l1 IH]; intros [|y l2] H; try discriminate; [done|].
  cbn [zip_with]. rewrite !sum_Z_cons, IH by (cbn in H; lia). lia.
Qed.
Lemma nonneg_zip l1 l2 : Forall (fun c => 0 <= c) l1 -> Forall (fun c => 0 <= c) l2 ->
  Forall (fun c => 0 <= c) (zip_with Z.add l1 l2).
Proof.
  intros H1. revert l2. induction H1; intros [|y l2] H2; cbn; constructor; inversion H2; subst; [lia|eauto].
Qed.

Lemma AddSample_inv log2 v d st d' : AddSample log2 v d = Ok (st, d') ->
  (d_option d = BNotSet /\ st = SInvalidArgument /\ d' = d) \/
  (st = SOk /\ d_option d <> BNotSet /\ exists s i b, UpdateGeneralStatistics b64 v (d_stats d) = Ok s /\
     add_bucket i 1 (d_buckets d) = Ok b /\ d' = set_buckets b (set_stats s d) /\
     match d_option d with
     | BExponential n g sc => exponential_index log2 n g sc v = Ok i
     | BLinear n w off => linear_index n w off v = Ok i
     | BExplicit bs => explicit_index bs v = Ok i
     | BNotSet => False
     end).
Proof.
  unfold AddSample. destruct (d_option d) eqn:Eo; [intros [= <- <-]; by left| | |].
  all: destruct (UpdateGeneralStatistics _ _ _) as [s| | |] eqn:Es; cbn [obind]; try discriminate;
    destruct (_ : outcome Z) as [i| | |] eqn:Ei; cbn [obind]; try discriminate;
    destruct (add_bucket _ _ _) as [b| | |] eqn:Eb; cbn [obind]; try discriminate;
    intros [= <- <-]; right; eauto 15.
Qed.

Lemma Update_count A (v : num A) s s' : UpdateGeneralStatistics A v s = Ok s' ->
  s_count s' = s_count s + 1.
Proof.
  unfold UpdateGeneralStatistics. destruct (Z.eqb_spec (s_count s) 0) as [E|E].
  - intros [= <-]. cbn. lia.
  - destruct (add64 _ _ _) eqn:Ea; cbn; try discriminate. intros [= <-]. apply add64_strict in Ea as [-> _]. done.
Qed.

Lemma Merge_inv f t st r : Merge f t = Ok (st, r) ->
  (st = SInvalidArgument /\ r = t) \/
  (st = SOk /\ BucketsApproximatelyEqual f t = true /\ length (d_buckets f) = length (d_buckets t) /\
    (d_count f <= 0 /\ r = t \/ 0 < d_count f /\ d_count t <= 0 /\ r = f \/
     0 < d_count f /\ 0 < d_count t /\ exists s, MergeStatistics b64 (d_stats f) (d_stats t) = Ok s /\
       r = set_buckets (zip_with Z.add (d_buckets t) (d_buckets f)) (set_stats s t))).
Proof.
  unfold Merge. destruct (BucketsApproximatelyEqual f t); cbn [negb]; [|intros [= <- <-]; by left].
  destruct (Nat.eqb_spec (length (d_buckets f)) (length (d_buckets t))) as [El|El]; cbn [negb];
    [|intros [= <- <-]; by left].
  destruct (Z.leb_spec (d_count f) 0); [intros [= <- <-]; right; by auto 10|].
  destruct (Z.leb_spec (d_count t) 0); [intros [= <- <-]; right; by auto 10|].
  destruct (MergeStatistics _ _ _) as [s| | |] eqn:Es; cbn [obind]; try discriminate.
  destruct (merge_buckets _ _) as [b| | |] eqn:Eb; cbn [obind]; try discriminate.
  intros [= <- <-]. right. apply merge_buckets_ok in Eb as ->; [|done]. eauto 15.
Qed.

Lemma MergeStatistics_inv A f t s : MergeStatistics A f t = Ok s ->
  s_count s = s_count t + s_count f /\ s_min s = std_min A (s_min f) (s_min t) /\
  s_max s = std_max A (s_max f) (s_max t) /\ int64_min <= s_count s <= int64_max.
Proof.
  unfold MergeStatistics. destruct (add64 _ _ _) eqn:Ea; cbn [obind]; try discriminate.
  intros [= <-]. apply add64_strict in Ea as [-> ?]. done.
Qed.

Lemma resize0_nil n : resize0 n [] = replicate n 0.
Proof. unfold resize0. rewrite take_nil. cbn [app length]. by rewrite Nat.sub_0_r. Qed.

(** ** C23 *)
Definition dist_inv (d : distribution) (l : list double) : Prop :=
  Forall (fun c => 0 <= c) (d_buckets d) /\ sum_Z (d_buckets d) = d_count d /\
  d_count d = Z.of_nat (length l) /\ Z.of_nat (length (d_buckets d)) = layout_buckets (d_option d).

Lemma init_inv n o : 0 <= n -> layout_buckets o = n ->
  dist_inv (set_buckets (resize0 (Z.to_nat n) []) (set_option o empty_distribution)) [].
Proof.
  intros Hn Ho. unfold dist_inv. cbn [set_buckets set_option d_buckets d_count d_option empty_distribution].
  rewrite resize0_nil, sum_Z_replicate, replicate_length, Ho. repeat split; [|lia].
  apply Forall_replicate. lia.
Qed.

Lemma built_inv log2 d l : built log2 d l -> dist_inv d l.
Proof.
  induction 1 as [n g s d H|n w o d H|b d H|d l v d' Hb IH H|d l f lf d' Hd IHd Hf IHf H].
  - unfold InitExponential in H. destruct (Z.leb_spec n 0); [discriminate|].
    destruct (fle g _); [discriminate|]. destruct (fle s _); [discriminate|].
    destruct (add32 n 2) eqn:E; cbn [obind] in H; try discriminate. apply add32_ok in E as [-> ?].
    injection H as <-. apply init_inv; [lia|done].
  - unfold InitLinear in H. destruct (Z.leb_spec n 0); [discriminate|].
    destruct (fle w _); [discriminate|].
    destruct (add32 n 2) eqn:E; cbn [obind] in H; try discriminate. apply add32_ok in E as [-> ?].
    injection H as <-. apply init_inv; [lia|done].
  - unfold InitExplicit in H. destruct (negb _); [discriminate|]. destruct (has_adjacent_equal b); [discriminate|].
    injection H as <-. cbn [empty_distribution d_option d_buckets app].
    replace (length b + 1)%nat with (Z.to_nat (Z.of_nat (length b) + 1)) by lia. apply init_inv; [lia|done].
  - apply AddSample_inv in H as [(_ & ? & _)|(_ & _ & s & i & b & Hs & Hb' & -> & _)]; [done|].
    apply Update_count in Hs. apply add_bucket_ok in Hb' as (c & Hi & Hc & -> & _).
    destruct IH as (H1 & H2 & H3 & H4). cbn [d_stats s_count num b64] in Hs.
    unfold dist_inv. cbn [set_buckets set_stats d_buckets d_count d_option].
    rewrite (sum_Z_insert _ _ c), insert_length, app_length, Hs by done. cbn [length].
    pose proof (Forall_lookup_1 _ _ _ _ H1 Hc) as Hc0. cbn in Hc0.
    repeat split; [|lia..|done]. apply Forall_insert; [done|lia].
  - apply Merge_inv in H as [(? & _)|(_ & _ & Hl & [(Hf0 & ->)|[(Hf0 & Ht0 & ->)|(Hf0 & Ht0 & s & Hs & ->)]])]; [done|..].
    + destruct IHd as (H1 & H2 & H3 & H4), IHf as (_ & _ & H3' & _). repeat split; auto.
      rewrite app_length. lia.
    + destruct IHd as (_ & _ & H3' & _), IHf as (H1 & H2 & H3 & H4). repeat split; auto.
      rewrite app_length. lia.
    + destruct IHd as (H1 & H2 & H3 & H4), IHf as (G1 & G2 & G3 & G4).
      apply MergeStatistics_inv in Hs as (Hc & _). cbn [d_stats s_count num b64] in Hc.
      unfold dist_inv. cbn [set_buckets set_stats d_buckets d_count d_option].
      rewrite sum_Z_zip, zip_with_length_l, app_length, Hc by lia. repeat split; [|lia..|done].
      by apply nonneg_zip.
Qed.

(** ** C26 *)
Lemma min_step (v m : double) l : no_nan (l ++ [v]) -> is_least m l -> is_least (std_min b64 v m) (l ++ [v]).
Proof.
  intros Hn [Hm Hl]. unfold std_min. cbn [nlt b64].
  assert (is_nan v = false) by (apply Hn; set_solver). assert (is_nan m = false) by (apply Hn; set_solver).
  destruct (flt m v) eqn:E.
  - split; [set_solver|]. intros x [Hx| ->%elem_of_list_singleton]%elem_of_app; [auto|by apply flt_fle].
  - split; [set_solver|]. apply flt_false in E; [|done..].
    intros x [Hx| ->%elem_of_list_singleton]%elem_of_app; [|by apply fle_refl]. eapply fle_trans; eauto.
Qed.
Lemma max_step (v m : double) l : no_nan (l ++ [v]) -> is_greatest m l -> is_greatest (std_max b64 v m) (l ++ [v]).
Proof.
  intros Hn [Hm Hl]. unfold std_max. cbn [nlt b64].
  assert (is_nan v = false) by (apply Hn; set_solver). assert (is_nan m = false) by (apply Hn; set_solver).
  destruct (flt v m) eqn:E.
  - split; [set_solver|]. intros x [Hx| ->%elem_of_list_singleton]%elem_of_app; [auto|by apply flt_fle].
  - split; [set_solver|]. apply flt_false in E; [|done..].
    intros x [Hx| ->%elem_of_list_singleton]%elem_of_app; [|by apply fle_refl]. eapply fle_trans; eauto.
Qed.
Lemma min_merge (m1 m2 : double) l1 l2 : no_nan (l1 ++ l2) -> is_least m1 l1 -> is_least m2 l2 ->
  is_least (std_min b64 m2 m1) (l1 ++ l2).
Proof.
  intros Hn [H1 G1] [H2 G2]. unfold std_min. cbn [nlt b64].
  assert (is_nan m1 = false) by (apply Hn; set_solver). assert (is_nan m2 = false) by (apply Hn; set_solver).
  destruct (flt m1 m2) eqn:E.
  - apply flt_fle in E. split; [set_solver|]. intros x [Hx|Hx]%elem_of_app; [auto|]. eapply fle_trans; eauto.
  - apply flt_false in E; [|done..]. split; [set_solver|].
    intros x [Hx|Hx]%elem_of_app; [|auto]. eapply fle_trans; eauto.
Qed.
Lemma max_merge (m1 m2 : double) l1 l2 : no_nan (l1 ++ l2) -> is_greatest m1 l1 -> is_greatest m2 l2 ->
  is_greatest (std_max b64 m2 m1) (l1 ++ l2).
Proof.
  intros Hn [H1 G1] [H2 G2]. unfold std_max. cbn [nlt b64].
  assert (is_nan m1 = false) by (apply Hn; set_solver). assert (is_nan m2 = false) by (apply Hn; set_solver).
  destruct (flt m2 m1) eqn:E.
  - apply flt_fle in E. split; [set_solver|]. intros x [Hx|Hx]%elem_of_app; [auto|]. eapply fle_trans; eauto.
  - apply flt_false in E; [|done..]. split; [set_solver|].
    intros x [Hx|Hx]%elem_of_app; [|auto]. eapply fle_trans; eauto.
Qed.

Lemma built_extremes log2 d l : built log2 d l -> no_nan l -> l <> [] ->
  is_least (d_min d) l /\ is_greatest (d_max d) l.
Proof.
  induction 1 as [n g s d H|n w o d H|b d H|d l v d' Hb IH H|d l f lf d' Hd IHd Hf IHf H]; try done.
  - intros Hn _. apply AddSample_inv in H as [(_ & ? & _)|(_ & _ & s & i & b & Hs & Hb' & -> & _)]; [done|].
    cbn [set_buckets set_stats d_min d_max].
    destruct (built_inv _ _ _ Hb) as (_ & _ & Hc & _).
    unfold UpdateGeneralStatistics in Hs. cbn [d_stats s_count] in Hs.
    destruct (Z.eqb_spec (d_count d) 0) as [E|E].
    + injection Hs as <-. cbn [s_min s_max]. destruct l; [|cbn in Hc; lia]. cbn [app].
      assert (is_nan v = false) by (apply Hn; set_solver).
      split; (split; [set_solver|]; intros x ->%elem_of_list_singleton; by apply fle_refl).
    + destruct (add64 _ _ _) eqn:Ea; cbn [obind] in Hs; try discriminate. injection Hs as <-.
      cbn [s_min s_max]. destruct l as [|x0 l0]; [cbn in Hc; lia|].
      destruct IH as [I1 I2]; [intros x Hx; apply Hn; set_solver|done|].
      split; [by apply min_step|by apply max_step].
  - intros Hn Hne. destruct (built_inv _ _ _ Hd) as (_ & _ & Hc & _), (built_inv _ _ _ Hf) as (_ & _ & Hcf & _).
    assert (no_nan l) by (intros x Hx; apply Hn; set_solver).
    assert (no_nan lf) by (intros x Hx; apply Hn; set_solver).
    apply Merge_inv in H as [(? & _)|(_ & _ & Hl & [(Hf0 & ->)|[(Hf0 & Ht0 & ->)|(Hf0 & Ht0 & s & Hs & ->)]])]; [done|..].
    + destruct lf; [|cbn in Hcf; lia]. rewrite app_nil_r in *. auto.
    + destruct l; [|cbn in Hc; lia]. cbn [app] in *. auto.
    + apply MergeStatistics_inv in Hs as (_ & Hmin & Hmax & _). cbn [d_stats s_min s_max num b64] in *.
      cbn [set_buckets set_stats d_min d_max]. rewrite Hmin, Hmax.
      destruct IHd as [I1 I2]; [done|intros ->; cbn in Hc; lia|].
      destruct IHf as [J1 J2]; [done|intros ->; cbn in Hcf; lia|].
      split; [by apply min_merge|by apply max_merge].
Qed.

(** ** C27 *)
Lemma merge_spec f t st r : Merge f t = Ok (st, r) ->
  (st = SInvalidArgument /\ r = t) \/
  (st = SOk /\ d_count f <= 0 /\ r = t) \/
  (st = SOk /\ 0 < d_count f /\ d_count t <= 0 /\ r = f) \/
  (st = SOk /\ 0 < d_count f /\ 0 < d_count t /\ d_count r = d_count t + d_count f /\
   d_buckets r = zip_with Z.add (d_buckets t) (d_buckets f) /\
   length (d_buckets f) = length (d_buckets t) /\ d_option r = d_option t).
Proof.
  intros H. apply Merge_inv in H as [?|(-> & _ & Hl & [?|[?|(? & ? & s & Hs & ->)]])]; [tauto..|].
  right; right; right. apply MergeStatistics_inv in Hs as (Hc & _). cbn [d_stats s_count num b64] in Hc.
  cbn [set_buckets set_stats d_buckets d_count d_option]. auto 10.
Qed.
Lemma merge_ub f t : is_ok (Merge f t) = false -> Merge f t = UB SignedOverflow.
Proof.
  unfold Merge. destruct (negb _); [done|].
  destruct (Nat.eqb_spec (length (d_buckets f)) (length (d_buckets t))) as [El|El]; cbn [negb]; [|done].
  destruct (_ <=? _); [done|]. destruct (_ <=? _); [done|].
  unfold MergeStatistics. cbn [d_stats s_count]. destruct (add64_cases (d_count t) (d_count f)) as [E|E]; rewrite E; [|done].
  cbn [obind].
  assert (is_ok (merge_buckets (d_buckets f) (d_buckets t)) = true \/
          merge_buckets (d_buckets f) (d_buckets t) = UB SignedOverflow) as Hm.
  { clear E. revert El. generalize (d_buckets f) (d_buckets t). intros l1.
    induction l1 as [|x l1 IH]; intros [|y l2] El;
      cbn in El; try discriminate; [by left|]. cbn [merge_buckets].
    destruct (add64_cases y x) as [E|E]; rewrite E; cbn [obind]; [|by right].
    destruct (IH l2 ltac:(lia)) as [E'|E'].
    - destruct (merge_buckets l1 l2); try discriminate. by left.
    - rewrite E'. by right. }
  destruct Hm as [E'|E'].
  - destruct (merge_buckets _ _); discriminate || done.
  - by rewrite E'.
Qed.

(** ** Defined additions *)
Lemma bucket_le_sum l i c : Forall (fun c => 0 <= c) l -> l !! i = Some c -> 0 <= c <= sum_Z l.
Proof.
  intros H. revert i. induction H as [|x l Hx Hl IH]; intros [|i] E; try discriminate; cbn in E; rewrite sum_Z_cons.
  - injection E as ->. assert (0 <= sum_Z l); [|lia]. clear - Hl. induction Hl; [done|]. rewrite sum_Z_cons. lia.
  - specialize (IH _ E). lia.
Qed.

Definition sample_index (log2 : double -> double) (o : bucket_option) (v : double) : outcome Z :=
  match o with
  | BExponential n g sc => exponential_index log2 n g sc v
  | BLinear n w off => linear_index n w off v
  | BExplicit b => explicit_index b v
  | BNotSet => Ok 0
  end.

Lemma add_bucket_fits b (i : nat) : Forall (fun c => 0 <= c) b -> sum_Z b < int64_max -> (i < length b)%nat ->
  add_bucket (Z.of_nat i) 1 b = Ok (alter (Z.add 1) i b).
Proof.
  intros Hnn Hs Hi. unfold add_bucket. destruct (Z.ltb_spec (Z.of_nat i) 0); [lia|]. rewrite Nat2Z.id.
  destruct (lookup_lt_is_Some_2 b i Hi) as [c Hc]. rewrite Hc.
  pose proof (bucket_le_sum _ _ _ Hnn Hc). rewrite add64_fits by (unfold int64_min; lia). cbn [obind]. f_equal.
  apply list_eq. intros j. destruct (decide (i = j)) as [<-|].
  - rewrite list_lookup_insert, list_lookup_alter, Hc by done. cbn. f_equal. lia.
  - rewrite list_lookup_insert_ne, list_lookup_alter_ne by done. done.
Qed.

Lemma add_sample_ok log2 d l v (i : nat) : built log2 d l -> d_count d < int64_max -> d_option d <> BNotSet ->
  sample_index log2 (d_option d) v = Ok (Z.of_nat i) -> Z.of_nat i < layout_buckets (d_option d) ->
  exists d', AddSample log2 v d = Ok (SOk, d') /\ d_buckets d' = alter (Z.add 1) i (d_buckets d).
Proof.
  intros Hb Hc Ho Hi Hl. destruct (built_inv _ _ _ Hb) as (H1 & H2 & H3 & H4).
  assert (exists s, UpdateGeneralStatistics b64 v (d_stats d) = Ok s) as [s Hs].
  { unfold UpdateGeneralStatistics. destruct (_ =? _); [eauto|]. cbn [d_stats s_count].
    rewrite add64_fits by (unfold int64_min in *; lia). cbn [obind]. eauto. }
  assert (add_bucket (Z.of_nat i) 1 (d_buckets d) = Ok (alter (Z.add 1) i (d_buckets d))) as Ha.
  { apply add_bucket_fits; [done|lia|]. rewrite <- H4 in Hl. lia. }
  unfold AddSample. unfold sample_index in Hi.
  destruct (d_option d) eqn:Eo; [done| | |]; rewrite Hs; cbn [obind]; rewrite Hi; cbn [obind];
    rewrite Ha; cbn [obind]; eexists; split; reflexivity.
Qed.

(** ** Explicit buckets *)
Lemma upper_bound_le fuel b v : forall first len, (first + len <= length b)%nat ->
  (first <= upper_bound_loop fuel b v first len <= length b)%nat.
Proof.
  induction fuel as [|fuel IH]; intros first len H; cbn [upper_bound_loop]; [lia|].
  destruct (Nat.eqb_spec len 0) as [->|Hlen]; [lia|].
  assert (Nat.div2 len < len)%nat by (apply Nat.lt_div2; lia).
  destruct (b !! _) as [mid|]; [|lia]. destruct (flt v mid).
  - specialize (IH first (Nat.div2 len)). lia.
  - specialize (IH (first + Nat.div2 len + 1)%nat (len - Nat.div2 len - 1)%nat). lia.
Qed.
Lemma std_upper_bound_le b v : (std_upper_bound b v <= length b)%nat.
Proof. unfold std_upper_bound. pose proof (upper_bound_le (S (length b)) b v 0 (length b)). lia. Qed.

Lemma increasing_le b i j x y : no_nan b -> strictly_increasing b -> (i <= j)%nat -> b !! i = Some x -> b !! j = Some y ->
  fle x y = true.
Proof.
  intros Hn Hs Hij Hx Hy. destruct (decide (i = j)) as [->|].
  - assert (x = y) as -> by congruence. apply fle_refl, Hn. by apply elem_of_list_lookup_2 in Hy.
  - apply flt_fle. eapply Hs; [|done..]. lia.
Qed.

Lemma upper_bound_spec fuel b v : no_nan b -> is_nan v = false -> strictly_increasing b ->
  forall first len, (len < fuel)%nat -> (first + len <= length b)%nat ->
  (forall j x, (j < first)%nat -> b !! j = Some x -> fle x v = true) ->
  (forall j x, (first + len <= j)%nat -> b !! j = Some x -> flt v x = true) ->
  let r := upper_bound_loop fuel b v first len in
  (forall j x, (j < r)%nat -> b !! j = Some x -> fle x v = true) /\
  (forall j x, (r <= j)%nat -> b !! j = Some x -> flt v x = true).
Proof.
  intros Hn Hv Hs. induction fuel as [|fuel IH]; intros first len Hf Hl H1 H2; [lia|]. cbn [upper_bound_loop].
  destruct (Nat.eqb_spec len 0) as [->|Hlen]; [rewrite Nat.add_0_r in H2; done|].
  assert (Nat.div2 len < len)%nat by (apply Nat.lt_div2; lia).
  destruct (lookup_lt_is_Some_2 b (first + Nat.div2 len)%nat) as [mid Hm]; [lia|]. rewrite Hm.
  assert (is_nan mid = false) by (apply Hn; by apply elem_of_list_lookup_2 in Hm).
  destruct (flt v mid) eqn:E; apply IH; try lia; try done.
  - intros j x Hj Hx. eapply flt_fle_trans; [done|]. eapply (increasing_le b); [done|done|exact Hj|done|done].
  - intros j x Hj Hx. apply flt_false in E; [|done..]. eapply fle_trans; [|done].
    eapply (increasing_le b j); [done|done| |done|done]. lia.
  - intros j x Hj Hx. apply (H2 j x); [lia|done].
Qed.

Lemma explicit_index_spec b v : b <> [] -> no_nan b -> is_nan v = false -> strictly_increasing b ->
  exists i, explicit_index b v = Ok (Z.of_nat i) /\ in_explicit_bucket b i v.
Proof.
  intros Hb Hn Hv Hs. destruct b as [|b0 b']; [done|]. set (b := b0 :: b') in *.
  change (explicit_index b v) with (if fle b0 v then Ok (Z.of_nat (std_upper_bound b v)) else Ok 0).
  assert (is_nan b0 = false) by (apply Hn; subst b; set_solver).
  destruct (fle b0 v) eqn:E.
  - exists (std_upper_bound b v). split; [done|].
    destruct (upper_bound_spec (S (length b)) b v Hn Hv Hs 0 (length b)) as [G1 G2]; [lia|lia|lia| |].
    { intros j x Hj Hx. apply lookup_lt_Some in Hx. lia. }
    fold (std_upper_bound b v) in *. repeat split.
    + intros j x Hj Hx. apply (G1 j x); [lia|done].
    + intros x Hx. by apply (G2 (std_upper_bound b v) x).
    + apply std_upper_bound_le.
  - exists 0%nat. split; [done|]. repeat split; [lia| |lia].
    intros x Hx. cbn in Hx. injection Hx as <-. by apply fle_false.
Qed.

Lemma in_explicit_bucket_unique b v i j : no_nan b -> strictly_increasing b ->
  in_explicit_bucket b i v -> in_explicit_bucket b j v -> i = j.
Proof.
  intros Hn Hs.
  assert (forall i j, (i < j)%nat -> in_explicit_bucket b i v -> in_explicit_bucket b j v -> False) as W.
  { clear i j. intros i j Hij (_ & Hi & _) (Hj & _ & Hlen).
    destruct j as [|j]; [lia|].
    destruct (lookup_lt_is_Some_2 b i) as [x Hx]; [lia|]. destruct (lookup_lt_is_Some_2 b j) as [y Hy]; [lia|].
    specialize (Hi _ Hx). specialize (Hj _ _ eq_refl Hy).
    assert (fle x y = true) by (eapply increasing_le; [done|done| |done|done]; lia).
    pose proof (flt_fle_trans _ _ _ Hi H) as C. apply flt_not_fle in C. congruence. }
  intros Hi Hj. destruct (Nat.lt_trichotomy i j) as [?|[?|?]]; [exfalso; eauto|done|exfalso; eauto].
Qed.

Lemma explicit_classifies log2 d l b v : built log2 d l -> d_count d < int64_max -> d_option d = BExplicit b ->
  b <> [] -> no_nan b -> strictly_increasing b -> is_nan v = false ->
  exists d' i, AddSample log2 v d = Ok (SOk, d') /\ in_explicit_bucket b i v /\
    d_buckets d' = alter (Z.add 1) i (d_buckets d) /\ (i < length (d_buckets d))%nat /\
    forall j, in_explicit_bucket b j v -> j = i.
Proof.
  intros Hb Hc Ho Hne Hn Hs Hv. destruct (explicit_index_spec b v Hne Hn Hv Hs) as (i & Hi & Hin).
  destruct (add_sample_ok log2 d l v i) as (d' & Ha & Hd'); [done|done|by rewrite Ho|by rewrite Ho| |].
  { rewrite Ho. cbn [layout_buckets]. destruct Hin as (_ & _ & ?). lia. }
  exists d', i. split_and!; [done|done|done| |].
  - destruct (built_inv _ _ _ Hb) as (_ & _ & _ & H4). rewrite Ho in H4. cbn [layout_buckets] in H4.
    destruct Hin as (_ & _ & ?). lia.
  - intros j Hj. by eapply in_explicit_bucket_unique.
Qed.

Lemma explicit_no_ub log2 d l b v : built log2 d l -> d_count d < int64_max -> d_option d = BExplicit b -> b <> [] ->
  exists d', AddSample log2 v d = Ok (SOk, d').
Proof.
  intros Hb Hc Ho Hne.
  assert (exists i, explicit_index b v = Ok (Z.of_nat i) /\ (i <= length b)%nat) as (i & Hi & Hle).
  { destruct b as [|b0 b']; [done|]. cbn [explicit_index]. destruct (fle b0 v).
    - eexists. split; [done|]. apply std_upper_bound_le.
    - exists 0%nat. split; [done|lia]. }
  destruct (add_sample_ok log2 d l v i) as (d' & Ha & _); [done|done|by rewrite Ho|by rewrite Ho| |eauto].
  rewrite Ho. cbn [layout_buckets]. lia.
Qed.

(** ** C25, exponential layout: exactly when a sample addition is defined *)
Lemma exponential_index_ok log2 n g sc v : 1 <= n -> n + 2 <= int32_max ->
  (fle sc v = true -> exists t, f_trunc (fdiv (log2 (fdiv v sc)) (log2 g)) = Some t /\ -1 <= t < int32_max) ->
  exists i : nat, exponential_index log2 n g sc v = Ok (Z.of_nat i) /\ Z.of_nat i < n + 2.
Proof.
  intros Hn Hn2 Ht. unfold exponential_index. destruct (fle sc v).
  2: { exists 0%nat. split; [done|lia]. }
  destruct (Ht eq_refl) as (t & Et & Hr). unfold f_to_int. rewrite Et.
  unfold in_int32. rewrite (proj2 (Z.leb_le _ _)), (proj2 (Z.leb_le _ _)) by (unfold int32_min; lia).
  cbn [andb obind]. rewrite add32_fits by (unfold int32_min; lia). cbn [obind].
  rewrite add32_fits by (unfold int32_min; lia). cbn [obind].
  destruct (Z.ltb_spec (n + 1) (1 + t)).
  - exists (Z.to_nat (n + 1)). split; [f_equal; lia|lia].
  - exists (Z.to_nat (1 + t)). split; [f_equal; lia|lia].
Qed.

Lemma built_option log2 d l : built log2 d l ->
  match d_option d with
  | BNotSet => False
  | BLinear n w o => 1 <= n /\ n + 2 <= int32_max /\ fle w f_zero = false
  | BExponential n g s => 1 <= n /\ n + 2 <= int32_max /\ fle g f_one = false /\ fle s f_zero = false
  | BExplicit b => is_sorted b = true /\ has_adjacent_equal b = false
  end.
Proof.
  induction 1 as [n g s d H|n w o d H|b d H|d l v d' Hb IH H|d l f lf d' Hd IHd Hf IHf H].
  - unfold InitExponential in H. destruct (Z.leb_spec n 0); [discriminate|].
    destruct (fle g _) eqn:Eg; [discriminate|]. destruct (fle s _) eqn:Es; [discriminate|].
    destruct (add32 n 2) eqn:E; cbn [obind] in H; try discriminate. apply add32_ok in E as [-> ?].
    injection H as <-. cbn [set_buckets set_option d_option]. split_and!; [lia|lia|done..].
  - unfold InitLinear in H. destruct (Z.leb_spec n 0); [discriminate|].
    destruct (fle w _) eqn:Ew; [discriminate|].
    destruct (add32 n 2) eqn:E; cbn [obind] in H; try discriminate. apply add32_ok in E as [-> ?].
    injection H as <-. cbn [set_buckets set_option d_option]. split_and!; [lia|lia|done..].
  - unfold InitExplicit in H. destruct (is_sorted b) eqn:E1; [|discriminate].
    destruct (has_adjacent_equal b) eqn:E2; [discriminate|].
    injection H as <-. cbn [set_buckets set_option d_option empty_distribution app]. done.
  - apply AddSample_inv in H as [(_ & ? & _)|(_ & _ & s & i & b & Hs & Hb' & -> & _)]; [done|].
    cbn [set_buckets set_stats d_option]. done.
  - apply Merge_inv in H as [(? & _)|(_ & _ & Hl & [(Hf0 & ->)|[(Hf0 & Ht0 & ->)|(Hf0 & Ht0 & s & Hs & ->)]])]; done.
Qed.

Lemma exponential_no_ub log2 d l n g sc v : built log2 d l -> d_count d < int64_max -> d_option d = BExponential n g sc ->
  ((exists d', AddSample log2 v d = Ok (SOk, d')) <->
   (fle sc v = true -> exists t, f_trunc (fdiv (log2 (fdiv v sc)) (log2 g)) = Some t /\ -1 <= t < int32_max)).
Proof.
  intros Hb Hc Ho. pose proof (built_option _ _ _ Hb) as Hopt. rewrite Ho in Hopt. destruct Hopt as (Hn & Hn2 & _).
  split.
  - intros [d' H] Hle. apply AddSample_inv in H as [(? & _)|(_ & _ & s & i & b & _ & Hi & _ & H)]; [congruence|].
    rewrite Ho in H. unfold exponential_index in H. rewrite Hle in H. unfold f_to_int in H.
    destruct (f_trunc _) as [t|]; [|discriminate]. exists t. split; [done|].
    destruct (in_int32 t) eqn:Et; [|discriminate]. cbn [obind] in H.
    destruct (add32 1 t) eqn:E; cbn [obind] in H; try discriminate. apply add32_ok in E as [-> ?].
    destruct (add32 n 1) eqn:E'; cbn [obind] in H; try discriminate. apply add32_ok in E' as [-> ?].
    apply add_bucket_ok in Hi as (c & Hi & _). destruct (Z.ltb_spec (n + 1) (1 + t)); injection H as <-; lia.
  - intros H. destruct (exponential_index_ok log2 n g sc v Hn Hn2 H) as (i & Hi & Hlt).
    destruct (add_sample_ok log2 d l v i) as (d' & Ha & _); [done|done|by rewrite Ho|by rewrite Ho| |eauto].
    by rewrite Ho.
Qed.

(** ** C29 *)
Lemma accepted_explicit_increasing b : no_nan b ->
  (is_sorted b = true /\ has_adjacent_equal b = false <-> strictly_increasing b).
Proof.
  intros Hn. split.
  - intros [H1 H2].
    assert (StronglySorted (fun x y => flt x y = true) b) as HS.
    { apply Sorted_StronglySorted; [intros x y z; apply flt_trans|].
      induction b as [|x [|y b] IH]; [constructor|repeat constructor|].
      cbn in H1, H2. apply andb_true_iff in H1 as [H1 H1']. apply orb_false_iff in H2 as [H2 H2'].
      constructor; [apply IH; [intros z Hz; apply Hn; set_solver|done..]|]. constructor.
      apply negb_true_iff in H1.
      assert (is_nan x = false) by (apply Hn; set_solver). assert (is_nan y = false) by (apply Hn; set_solver).
      apply flt_klt; [done..|]. apply not_true_iff_false in H1, H2.
      rewrite flt_klt in H1 by done. rewrite feq_keq in H2 by done. unfold kle, klt in *. lia. }
    clear H1 H2 Hn. induction HS as [|x b HS IH HF]; intros i j u w Hij Hu Hw; [done|].
    destruct j as [|j]; [lia|]. cbn in Hw. destruct i as [|i]; cbn in Hu.
    + injection Hu as <-. rewrite Forall_forall in HF. apply HF. by apply elem_of_list_lookup_2 in Hw.
    + eapply IH; [|done..]. lia.
  - intros Hs. induction b as [|x [|y b] IH]; [done..|].
    assert (flt x y = true) as Hxy by (apply (Hs 0%nat 1%nat); [lia|done..]).
    destruct IH as [I1 I2].
    { intros z Hz; apply Hn; set_solver. }
    { intros i j u w Hij Hu Hw. apply (Hs (S i) (S j)); [lia|done..]. }
    cbn. cbn in I1, I2. rewrite I1, I2.
    assert (is_nan x = false) by (apply Hn; set_solver). assert (is_nan y = false) by (apply Hn; set_solver).
    apply flt_klt in Hxy; [|done..]. split.
    + rewrite andb_true_r. apply negb_true_iff, not_true_iff_false. rewrite flt_klt by done. unfold klt in *. lia.
    + rewrite orb_false_r. apply not_true_iff_false. rewrite feq_keq by done. unfold kle, klt in *. lia.
Qed.

Lemma init_explicit_partial b d : no_nan b ->
  (exists d', InitExplicit b d = Ok (SOk, d') /\ strictly_increasing b) \/
  (InitExplicit b d = Ok (SInvalidArgument, d) /\ ~ strictly_increasing b).
Proof.
  intros Hn. pose proof (accepted_explicit_increasing b Hn) as Hi. unfold InitExplicit.
  destruct (is_sorted b); cbn [negb]; [|right; split; [done|intros G; by apply Hi in G as [? _]]].
  destruct (has_adjacent_equal b); [right; split; [done|intros G; by apply Hi in G as [_ ?]]|].
  left. eexists. split; [done|]. by apply Hi.
Qed.
Lemma init_exponential_partial n g s d : n + 2 <= int32_max -> is_nan g = false -> is_nan s = false ->
  (exists d', InitExponential n g s d = Ok (SOk, d') /\ 1 <= n /\ flt f_one g = true /\ flt f_zero s = true) \/
  (InitExponential n g s d = Ok (SInvalidArgument, d) /\ ~ (1 <= n /\ flt f_one g = true /\ flt f_zero s = true)).
Proof.
  intros Hn Hg Hs. unfold InitExponential. destruct (Z.leb_spec n 0); [right; split; [done|lia]|].
  destruct (fle g f_one) eqn:Eg. { right. split; [done|]. intros (_ & G & _). apply flt_not_fle in G. congruence. }
  destruct (fle s f_zero) eqn:Es. { right. split; [done|]. intros (_ & _ & G). apply flt_not_fle in G. congruence. }
  rewrite add32_fits by (unfold int32_min; lia). cbn [obind]. left. eexists. split; [done|].
  apply fle_false in Eg, Es; [|done..]. split_and!; [lia|done..].
Qed.
Lemma init_linear_partial n w o d : n + 2 <= int32_max -> is_nan w = false ->
  (exists d', InitLinear n w o d = Ok (SOk, d') /\ 1 <= n /\ flt f_zero w = true) \/
  (InitLinear n w o d = Ok (SInvalidArgument, d) /\ ~ (1 <= n /\ flt f_zero w = true)).
Proof.
  intros Hn Hg. unfold InitLinear. destruct (Z.leb_spec n 0); [right; split; [done|lia]|].
  destruct (fle w f_zero) eqn:Es. { right. split; [done|]. intros (_ & G). apply flt_not_fle in G. congruence. }
  rewrite add32_fits by (unfold int32_min; lia). cbn [obind]. left. eexists. split; [done|].
  apply fle_false in Es; [|done..]. split_and!; [lia|done..].
Qed.
Lemma init_refuted :
  (exists d, InitExplicit [] empty_distribution = Ok (SOk, d)) /\
  (exists d, InitExponential 4 S754_nan f_one empty_distribution = Ok (SOk, d)) /\
  (exists d, InitLinear 4 S754_nan f_one empty_distribution = Ok (SOk, d)) /\
  (exists d, InitExplicit [f_one; S754_nan; f_zero] empty_distribution = Ok (SOk, d)) /\
  InitLinear int32_max f_one f_zero empty_distribution = UB SignedOverflow.
Proof. split_and!; first [reflexivity | eexists; vm_compute; reflexivity]. Qed.

(** ** C28 *)
Open Scope Q_scope.
Definition q_sq (l : list Q) : Q := q_sum (map (fun x => x * x) l).
Lemma q_sum_cons x l : q_sum (x :: l) = x + q_sum l.
Proof. reflexivity. Qed.
Lemma q_sum_app l1 l2 : q_sum (l1 ++ l2) == q_sum l1 + q_sum l2.
Proof. induction l1 as [|x l1 IH]; cbn [app]; [change (q_sum []) with 0; ring|]. rewrite !q_sum_cons, IH. ring. Qed.
Lemma q_sq_app l1 l2 : q_sq (l1 ++ l2) == q_sq l1 + q_sq l2.
Proof. unfold q_sq. rewrite map_app. apply q_sum_app. Qed.
Lemma q_dev l m : q_sum (map (fun x => (x - m) * (x - m)) l) ==
  q_sq l - (2#1) * m * q_sum l + inject_Z (Z.of_nat (length l)) * m * m.
Proof.
  unfold q_sq. induction l as [|x l IH].
  { cbn [map length]. change (q_sum []) with 0. change (inject_Z (Z.of_nat 0)) with 0. ring. }
  cbn [map length]. rewrite !q_sum_cons, IH.
  replace (Z.of_nat (S (length l))) with (Z.of_nat (length l) + 1)%Z by lia. rewrite inject_Z_plus.
  change (inject_Z 1) with 1. ring.
Qed.

Definition q_inv (s : stats Q) (l : list Q) : Prop :=
  l <> [] /\ s_count s = Z.of_nat (length l) /\
  s_mean s * inject_Z (s_count s) == q_sum l /\ s_ssd s == q_sq l - s_mean s * q_sum l.

Lemma q_inject_pos z : (0 < z)%Z -> ~ inject_Z z == 0.
Proof. intros H. unfold Qeq. cbn. lia. Qed.

Lemma q_built_inv s l : q_built s l -> q_inv s l.
Proof.
  induction 1 as [v s0 s H0 H|v s l s' Hb IH H|f lf t lt s' Hf IHf Ht IHt H].
  - unfold UpdateGeneralStatistics in H. rewrite H0 in H. cbn [Z.eqb] in H. injection H as <-.
    unfold q_inv, q_sq. cbn [s_count s_mean s_ssd map length].
    rewrite !q_sum_cons. change (q_sum []) with 0.
    split_and!; [done|done|change (inject_Z 1) with 1; ring|change (nint q_arith 0) with 0; ring].
  - destruct IH as (Hne & Hc & Hm & Hs). unfold UpdateGeneralStatistics in H. change (num q_arith) with Q in *.
    destruct (Z.eqb_spec (s_count s) 0) as [E|E]; [destruct l; [done|cbn in Hc; lia]|].
    destruct (add64 _ _ _) as [n1| | |] eqn:Ea; cbn [obind] in H; try discriminate.
    apply add64_strict in Ea as [-> _]. injection H as <-. unfold q_inv. cbn [s_count s_mean s_ssd q_arith nadd nsub nmul ndiv nint].
    assert (0 < s_count s)%Z as Hpos by lia. set (n := s_count s) in *.
    rewrite q_sum_app, q_sq_app, inject_Z_plus. unfold q_sq at 2. cbn [map]. rewrite !q_sum_cons. change (q_sum []) with 0. change (inject_Z 1) with 1.
    assert (~ inject_Z n + 1 == 0) as Hn1.
    { change 1 with (inject_Z 1). rewrite <- inject_Z_plus. apply q_inject_pos. lia. }
    set (m := s_mean s) in *. set (m' := (inject_Z n * m + v) / (inject_Z n + 1)).
    assert (m' * (inject_Z n + 1) == inject_Z n * m + v) as Hm' by (unfold m'; field; done).
    clearbody m'. split_and!.
    + by destruct l.
    + rewrite app_length. cbn [length]. lia.
    + rewrite Hm', <- Hm. ring.
    + rewrite Hs, <- Hm.
      setoid_replace (v * v) with (v * v + m * (m' * (inject_Z n + 1)) - m * (m' * (inject_Z n + 1))) by ring.
      rewrite Hm' at 2. ring.
  - destruct IHf as (Hfne & Hfc & Hfm & Hfs), IHt as (Htne & Htc & Htm & Hts). unfold MergeStatistics in H. change (num q_arith) with Q in *.
    destruct (add64 _ _ _) as [n1| | |] eqn:Ea; cbn [obind] in H; try discriminate.
    apply add64_strict in Ea as [-> _]. injection H as <-. unfold q_inv. cbn [s_count s_mean s_ssd q_arith nadd nsub nmul ndiv nint].
    assert (0 < s_count f)%Z by (destruct lf; [done|cbn in Hfc; lia]).
    assert (0 < s_count t)%Z by (destruct lt; [done|cbn in Htc; lia]).
    rewrite q_sum_app, q_sq_app.
    assert (~ inject_Z (s_count t + s_count f) == 0) as Hn1 by (apply q_inject_pos; lia).
    rewrite inject_Z_plus in *.
    set (a := inject_Z (s_count t)) in *. set (b := inject_Z (s_count f)) in *.
    set (p := s_mean t) in *. set (q := s_mean f) in *.
    set (m' := (a * p + b * q) / (a + b)).
    assert (m' * (a + b) == a * p + b * q) as Hm' by (unfold m'; field; done).
    clearbody m'. split_and!.
    + by destruct lt.
    + rewrite app_length. lia.
    + rewrite Hm', <- Hfm, <- Htm. ring.
    + rewrite Hfs, Hts, <- Hfm, <- Htm.
      transitivity (q_sq lt + q_sq lf + m' * (m' * (a + b)) - (2#1) * m' * (a * p + b * q)); [ring|].
      rewrite Hm'. ring.
Qed.

Lemma q_exact s l : q_built s l -> s_count s = Z.of_nat (length l) /\ s_mean s == q_mean l /\ s_ssd s == q_ssd l.
Proof.
  intros H. apply q_built_inv in H as (Hne & Hc & Hm & Hs).
  assert (~ inject_Z (Z.of_nat (length l)) == 0) as Hn by (apply q_inject_pos; destruct l; [done|cbn; lia]).
  assert (s_mean s == q_mean l) as E. { unfold q_mean. rewrite <- Hm, Hc. field. done. }
  split_and!; [done|done|]. unfold q_ssd. rewrite q_dev, Hs, <- E. rewrite <- Hm, Hc. ring.
Qed.
Close Scope Q_scope.

(** ** Which merges are accepted *)
Lemma combine_close (b1 b2 : list double) : length b1 = length b2 ->
  (forallb (fun xy : double * double => IsCloseEnough xy.1 xy.2) (combine b1 b2) = true <->
   forall i x y, b1 !! i = Some x -> b2 !! i = Some y -> close x y).
Proof.
  revert b2. induction b1 as [|x b1 IH]; intros [|y b2] El; try discriminate.
  { split; [intros _ i x y H; by rewrite lookup_nil in H|done]. }
  cbn [combine forallb fst snd]. rewrite andb_true_iff, IH by (by injection El). split.
  - intros [H1 H2] [|i] a b Ha Hb; cbn in Ha, Hb; [by simplify_eq|eauto].
  - intros H. split; [by apply (H 0%nat)|]. intros i a b Ha Hb. by apply (H (S i)).
Qed.
Lemma approx_similar f t : BucketsApproximatelyEqual f t = true <-> similar_layout (d_option f) (d_option t).
Proof.
  unfold BucketsApproximatelyEqual. split.
  - destruct (d_option f) as [|n1 x1 y1|n1 x1 y1|b1], (d_option t) as [|n2 x2 y2|n2 x2 y2|b2]; try discriminate.
    + intros [[->%Z.eqb_eq ?]%andb_true_iff ?]%andb_true_iff. by constructor.
    + intros [[->%Z.eqb_eq ?]%andb_true_iff ?]%andb_true_iff. by constructor.
    + intros [El%Nat.eqb_eq H]%andb_true_iff. constructor; [done|]. by apply combine_close.
  - intros [n w1 o1 w2 o2 H1 H2|n w1 o1 w2 o2 H1 H2|b1 b2 El H].
    1-2: rewrite Z.eqb_refl; unfold close in *; unfold IsCloseEnough, f_1em5; by rewrite H1, H2.
    rewrite El, Nat.eqb_refl. by apply combine_close.
Qed.
Lemma merge_accepts f t st r : Merge f t = Ok (st, r) ->
  (st = SOk <-> similar_layout (d_option f) (d_option t) /\ length (d_buckets f) = length (d_buckets t)).
Proof.
  intros H. rewrite <- approx_similar. revert H. unfold Merge.
  destruct (BucketsApproximatelyEqual f t); cbn [negb]; [|intros [= <- <-]; naive_solver].
  destruct (Nat.eqb_spec (length (d_buckets f)) (length (d_buckets t))) as [El|El]; cbn [negb]; [|intros [= <- <-]; naive_solver].
  intros H. split; [done|]. intros _. revert H.
  destruct (_ <=? _); [by intros [= <- <-]|]. destruct (_ <=? _); [by intros [= <- <-]|].
  destruct (MergeStatistics _ _ _); cbn [obind]; try discriminate.
  destruct (merge_buckets _ _); cbn [obind]; try discriminate. by intros [= <- <-].
Qed.
