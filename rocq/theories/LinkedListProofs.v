(** Proofs about the pointer-level lists. *)
From Verif Require Import Base LinkedList.
From stdpp Require Import gmap list.

(** Consecutive pairs along a list, and around a ring. *)
Fixpoint chain (x : nat) (l : list nat) : list (nat * nat) :=
  match l with [] => [] | y :: l' => (x, y) :: chain y l' end.
Definition around (r : list nat) : list (nat * nat) := match r with [] => [] | x :: l => chain x (l ++ [x]) end.

Lemma chain_app x l y l' : chain x (l ++ y :: l') = chain x (l ++ [y]) ++ chain y l'.
Proof. revert x. induction l as [|z l IH]; intros x; cbn; [done|]. by rewrite IH. Qed.
Lemma chain_src x l y : (chain x (l ++ [y])).*1 = x :: l.
Proof. revert x. induction l as [|z l IH]; intros x; cbn; [done|]. by rewrite IH. Qed.
Lemma chain_dst x l : (chain x l).*2 = l.
Proof. revert x. induction l as [|z l IH]; intros x; cbn; [done|]. by rewrite IH. Qed.
Lemma around_src r : (around r).*1 = r.
Proof. destruct r; [done|]. apply chain_src. Qed.
Lemma around_dst r : (around r).*2 ≡ₚ r.
Proof. destruct r; [done|]. cbn. rewrite chain_dst. symmetry. apply Permutation_cons_append. Qed.
Lemma around_rot a b : around (a ++ b) ≡ₚ around (b ++ a).
Proof.
  destruct a as [|x a]; [by rewrite app_nil_r|]. destruct b as [|y b]; [by rewrite app_nil_r|].
  cbn. rewrite <- !app_assoc. cbn. rewrite (chain_app x a y), (chain_app y b x (a ++ [y])). apply Permutation_app_comm.
Qed.

Definition nx (m : pheap) (x : nat) : option nat := m !! x ≫= n_next.
Definition pv (m : pheap) (x : nat) : option nat := m !! x ≫= n_prev.
(** The pointers between two neighbours. *)
Definition joined (m : pheap) (p : nat * nat) : Prop := nx m p.1 = Some p.2 /\ pv m p.2 = Some p.1.

Record Rng (m : pheap) (s : rings) : Prop := {
  rg_dup : NoDup (concat (r_rings s) ++ r_loose s);
  rg_dom : forall x, is_Some (m !! x) <-> x ∈ concat (r_rings s) ++ r_loose s;
  rg_join : forall r, r ∈ r_rings s -> Forall (joined m) (around r);
  rg_loose : forall x, x ∈ r_loose s -> m !! x = Some (Node None None) }.

Lemma nx_some m x y : nx m x = Some y -> exists n, m !! x = Some n /\ n_next n = Some y.
Proof. unfold nx. intros H. apply bind_Some in H. done. Qed.
Lemma pv_some m x y : pv m x = Some y -> exists n, m !! x = Some n /\ n_prev n = Some y.
Proof. unfold pv. intros H. apply bind_Some in H. done. Qed.

Lemma wr_next_ok x v m : is_Some (m !! x) -> exists m', wr_next x v m = Ok m' /\
  (forall y, is_Some (m' !! y) <-> is_Some (m !! y)) /\
  (forall y, nx m' y = if decide (y = x) then v else nx m y) /\ (forall y, pv m' y = pv m y) /\
  (forall y, y <> x -> m' !! y = m !! y).
Proof.
  intros [n E]. unfold wr_next, rd. rewrite E. cbn. eexists. split; [done|]. split; [|split; [|split]].
  - intros y. destruct (decide (y = x)) as [->|H]; [rewrite lookup_insert|rewrite lookup_insert_ne by done; done].
    rewrite E. split; intros _; eauto.
  - intros y. unfold nx. destruct (decide (y = x)) as [->|H]; [by rewrite lookup_insert|by rewrite lookup_insert_ne by done].
  - intros y. unfold pv. destruct (decide (y = x)) as [->|H]; [rewrite lookup_insert, E; done|by rewrite lookup_insert_ne by done].
  - intros y H. by rewrite lookup_insert_ne.
Qed.
Lemma wr_prev_ok x v m : is_Some (m !! x) -> exists m', wr_prev x v m = Ok m' /\
  (forall y, is_Some (m' !! y) <-> is_Some (m !! y)) /\
  (forall y, pv m' y = if decide (y = x) then v else pv m y) /\ (forall y, nx m' y = nx m y) /\
  (forall y, y <> x -> m' !! y = m !! y).
Proof.
  intros [n E]. unfold wr_prev, rd. rewrite E. cbn. eexists. split; [done|]. split; [|split; [|split]].
  - intros y. destruct (decide (y = x)) as [->|H]; [rewrite lookup_insert|rewrite lookup_insert_ne by done; done].
    rewrite E. split; intros _; eauto.
  - intros y. unfold pv. destruct (decide (y = x)) as [->|H]; [by rewrite lookup_insert|by rewrite lookup_insert_ne by done].
  - intros y. unfold nx. destruct (decide (y = x)) as [->|H]; [rewrite lookup_insert, E; done|by rewrite lookup_insert_ne by done].
  - intros y H. by rewrite lookup_insert_ne.
Qed.
Lemma rd_ok x m : is_Some (m !! x) -> exists n, rd x m = Ok n /\ m !! x = Some n /\ n_next n = nx m x /\ n_prev n = pv m x.
Proof. intros [n E]. unfold rd, nx, pv. rewrite E. eauto. Qed.

(** Linking: the pointers afterwards. *)
Lemma link_ok e h y m : is_Some (m !! e) -> is_Some (m !! y) -> nx m h = Some y -> e <> h -> e <> y ->
  exists m', PLink e h m = Ok m' /\ (forall z, is_Some (m' !! z) <-> is_Some (m !! z)) /\
  (forall z, nx m' z = if decide (z = h) then Some e else if decide (z = e) then Some y else nx m z) /\
  (forall z, pv m' z = if decide (z = y) then Some e else if decide (z = e) then Some h else pv m z) /\
  (forall z, z <> h -> z <> e -> z <> y -> m' !! z = m !! z).
Proof.
  intros He Hy Hn Hne Hny. assert (Hh : is_Some (m !! h)) by (destruct (nx_some m h y Hn) as (n & E & _); eauto).
  unfold PLink. destruct (rd_ok h m Hh) as (n1 & -> & _ & E1 & _). cbn. rewrite E1, Hn.
  destruct (wr_next_ok e (Some y) m He) as (m1 & -> & D1 & N1 & P1 & F1). cbn.
  destruct (wr_prev_ok e (Some h) m1) as (m2 & -> & D2 & P2 & N2 & F2); [by apply D1|]. cbn.
  destruct (rd_ok e m2) as (n2 & -> & _ & E2 & _); [by apply D2, D1|]. cbn. rewrite E2, N2, N1, decide_True by done. cbn.
  destruct (wr_prev_ok y (Some e) m2) as (m3 & -> & D3 & P3 & N3 & F3); [by apply D2, D1|]. cbn.
  destruct (rd_ok e m3) as (n3 & -> & _ & _ & E3); [by apply D3, D2, D1|]. cbn.
  rewrite E3, P3, decide_False by done. rewrite P2, decide_True by done. cbn.
  destruct (wr_next_ok h (Some e) m3) as (m4 & -> & D4 & N4 & P4 & F4); [by apply D3, D2, D1|].
  exists m4. split; [done|]. split; [intros z; by rewrite D4, D3, D2, D1|]. split; [|split].
  - intros z. by rewrite N4, N3, N2, N1.
  - intros z. by rewrite P4, P3, P2, P1.
  - intros z Z1 Z2 Z3. by rewrite F4, F3, F2, F1 by done.
Qed.

(** Unlinking. *)
Lemma unlink_ok e p q m : is_Some (m !! p) -> is_Some (m !! q) -> nx m e = Some q -> pv m e = Some p ->
  exists m', PUnlink e m = Ok m' /\ (forall z, is_Some (m' !! z) <-> is_Some (m !! z)) /\ m' !! e = Some (Node None None) /\
  (forall z, z <> e -> nx m' z = if decide (z = p) then Some q else nx m z) /\
  (forall z, z <> e -> pv m' z = if decide (z = q) then Some p else pv m z) /\
  (forall z, z <> e -> z <> p -> z <> q -> m' !! z = m !! z).
Proof.
  intros Hp Hq Hn Hv. assert (He : is_Some (m !! e)) by (destruct (nx_some m e q Hn) as (n & E & _); eauto).
  unfold PUnlink, PIsLinked. destruct (rd_ok e m He) as (n1 & -> & _ & E1 & E1'). cbn. rewrite E1, E1', Hn, Hv. cbn.
  destruct (wr_next_ok p (Some q) m Hp) as (m1 & -> & D1 & N1 & P1 & F1). cbn.
  destruct (rd_ok e m1) as (n2 & -> & _ & E2 & E2'); [by apply D1|]. cbn. rewrite E2, E2', P1, Hv, N1.
  replace (if decide (e = p) then Some q else nx m e) with (Some q) by (rewrite Hn; by destruct (decide (e = p))). cbn.
  destruct (wr_prev_ok q (Some p) m1) as (m2 & -> & D2 & P2 & N2 & F2); [by apply D1|]. cbn.
  destruct (wr_prev_ok e None m2) as (m3 & -> & D3 & P3 & N3 & F3); [by apply D2, D1|]. cbn.
  destruct (wr_next_ok e None m3) as (m4 & -> & D4 & N4 & P4 & F4); [by apply D3, D2, D1|].
  exists m4. split; [done|]. split; [intros z; by rewrite D4, D3, D2, D1|]. split; [|split; [|split]].
  - assert (X : is_Some (m4 !! e)) by by apply D4, D3, D2, D1. destruct X as [[a b] X].
    pose proof (N4 e) as Y. pose proof (P4 e) as W. rewrite P3 in W. rewrite decide_True in Y, W by done.
    unfold nx in Y. unfold pv in W. rewrite X in Y, W. cbn in Y, W. by subst.
  - intros z Z. rewrite N4, decide_False, N3, N2, N1 by done. done.
  - intros z Z. rewrite P4, P3, decide_False, P2, P1 by done. done.
  - intros z Z1 Z2 Z3. by rewrite F4, F3, F2, F1 by done.
Qed.

(** ** The invariant is kept *)
Lemma split_at (x : nat) l : x ∈ l -> NoDup l -> exists a b, l = a ++ x :: b /\ x ∉ a /\ x ∉ b.
Proof.
  intros H N. apply elem_of_list_split in H as (a & b & ->). exists a, b. split; [done|].
  apply NoDup_app in N as (_ & N1 & N2). apply NoDup_cons in N2 as [N2 _]. split; [|done]. intros X. apply (N1 x X). left.
Qed.
Lemma without_out x l : x ∉ l -> without x l = l.
Proof.
  induction l as [|y l IH]; intros H; [done|]. apply not_elem_of_cons in H as [H1 H2]. unfold without in *. rewrite filter_cons_True by congruence. by rewrite IH.
Qed.
Lemma without_app x a b : without x (a ++ b) = without x a ++ without x b.
Proof. apply filter_app. Qed.
Lemma without_self x l : without x (x :: l) = without x l.
Proof. unfold without. by rewrite filter_cons_False by auto. Qed.
Lemma insert_after_out h x l : h ∉ l -> insert_after h x l = l.
Proof.
  induction l as [|y l IH]; intros H; [done|]. apply not_elem_of_cons in H as [H1 H2]. unfold insert_after in *. cbn. rewrite decide_False by congruence.
  cbn. by rewrite IH.
Qed.
Lemma insert_after_in h x a b : h ∉ a -> h ∉ b -> insert_after h x (a ++ h :: b) = a ++ h :: x :: b.
Proof.
  intros Ha Hb. unfold insert_after. rewrite bind_app, bind_cons. change (a ≫= _) with (insert_after h x a). change (b ≫= _) with (insert_after h x b).
  rewrite !insert_after_out by done. by rewrite decide_True.
Qed.
Lemma in_concat (x : nat) (R : list (list nat)) : x ∈ concat R <-> exists r, r ∈ R /\ x ∈ r.
Proof.
  induction R as [|r R IH]; cbn.
  - split; [by intros ?%elem_of_nil|]. by intros (r & ?%elem_of_nil & _).
  - rewrite elem_of_app, IH. split.
    + intros [H|(r' & H1 & H2)]; [exists r; split; [left|done]|exists r'; split; [by right|done]].
    + intros (r' & [->|H1]%elem_of_cons & H2); [by left|right; eauto].
Qed.

Lemma perm_mid (A : list nat) h x B : A ++ h :: x :: B ≡ₚ x :: A ++ h :: B.
Proof. rewrite (Permutation_swap x h B). symmetry. apply Permutation_middle. Qed.

(** One ring contains the element, the others do not. *)
Lemma ring_of x s : NoDup (concat (r_rings s)) -> x ∈ concat (r_rings s) ->
  exists R1 a b R2, r_rings s = R1 ++ (a ++ x :: b) :: R2 /\ x ∉ concat R1 /\ x ∉ concat R2 /\ x ∉ a /\ x ∉ b.
Proof.
  intros N H. apply in_concat in H as (r & Hr & Hx). apply elem_of_list_split in Hr as (R1 & R2 & E).
  rewrite E, concat_app in N. cbn in N. apply NoDup_app in N as (_ & N1 & N2). apply NoDup_app in N2 as (N2 & N3 & _).
  destruct (split_at x r Hx N2) as (a & b & -> & Ha & Hb). exists R1, a, b, R2. split; [done|]. split; [|split; [|done]].
  - intros X. apply (N1 x X). apply elem_of_app. by left.
  - by apply N3.
Qed.
Lemma map_out (f : list nat -> list nat) (x : nat) R : (forall l, x ∉ l -> f l = l) -> x ∉ concat R -> f <$> R = R.
Proof.
  intros Hf. induction R as [|r R IH]; intros H; [done|]. cbn in H. rewrite elem_of_app in H. cbn. rewrite Hf by tauto. rewrite IH by tauto. done.
Qed.

Lemma joined_dom m p : joined m p -> is_Some (m !! p.1) /\ is_Some (m !! p.2).
Proof. intros [H1 H2]. destruct (nx_some _ _ _ H1) as (? & ? & _), (pv_some _ _ _ H2) as (? & ? & _). eauto. Qed.

(** The rings that do not contain the touched elements keep their pointers. *)
Lemma keep_join m m' (P : nat -> Prop) r : (forall z, P z -> m' !! z = m !! z) -> Forall P r -> Forall (joined m) (around r) -> Forall (joined m') (around r).
Proof.
  intros Hk Hr Hj. rewrite Forall_forall in Hr. rewrite Forall_forall in Hj. apply Forall_forall. intros [x y] H. pose proof (Hj _ H) as [J1 J2].
  assert (Hx : x ∈ r) by (rewrite <- around_src; apply elem_of_list_fmap; exists (x, y); done).
  assert (Hy : y ∈ r) by (rewrite <- around_dst; apply elem_of_list_fmap; exists (x, y); done).
  unfold joined, nx, pv in *. cbn in *. rewrite (Hk x), (Hk y) by (by apply Hr). done.
Qed.

Lemma rng_link m s x h : Rng m s -> x ∈ r_loose s -> on_list h s -> exists m', PLink x h m = Ok m' /\ Rng m' (rstep (LLink x h) s).
Proof.
  intros [N D J L] Hx Hh. apply NoDup_app in N as (N1 & N2 & N3).
  destruct (ring_of h s N1 Hh) as (R1 & a & b & R2 & E & H1 & H2 & Ha & Hb).
  assert (Hxc : x ∉ concat (r_rings s)) by (intros X; by apply (N2 x X)).
  assert (Jr : Forall (joined m) (around (h :: b ++ a))).
  { change (h :: b ++ a) with ((h :: b) ++ a). rewrite <- around_rot. apply J. rewrite E, elem_of_app. right. left. }
  assert (Nr : NoDup (h :: b ++ a)).
  { rewrite E, concat_app in N1. cbn in N1. apply NoDup_app in N1 as (_ & _ & N1). apply NoDup_app in N1 as (N1 & _ & _).
    change (h :: b ++ a) with ((h :: b) ++ a). by rewrite Permutation_app_comm. }
  set (l := b ++ a) in *. assert (exists y rest, l ++ [h] = y :: rest) as (y & rest & El) by (destruct l; cbn; eauto).
  cbn [around] in Jr. rewrite El in Jr. cbn [chain] in Jr. apply Forall_cons in Jr as [Jh Jc]. destruct Jh as [Jh1 Jh2]. cbn in Jh1, Jh2.
  assert (Hin : forall z, z ∈ h :: l -> z ∈ concat (r_rings s)).
  { intros z Hz. rewrite E, concat_app. cbn. rewrite !elem_of_app. right. left. unfold l in Hz. rewrite elem_of_cons, elem_of_app in Hz. rewrite elem_of_cons. tauto. }
  assert (Hy : y ∈ h :: l). { assert (y ∈ l ++ [h]) by (rewrite El; left). rewrite elem_of_app, elem_of_list_singleton in H. rewrite elem_of_cons. tauto. }
  destruct (link_ok x h y m) as (m' & -> & D' & NX & PV & F).
  { apply D. rewrite elem_of_app. by right. } { apply D. rewrite elem_of_app. auto. } { done. } { intros ->. apply Hxc, Hin. left. } { intros ->. by apply Hxc, Hin. }
  exists m'. split; [done|].
  assert (Er : r_rings (rstep (LLink x h) s) = R1 ++ (a ++ h :: x :: b) :: R2).
  { cbn. rewrite E, fmap_app. cbn. rewrite insert_after_in by done.
    rewrite (map_out _ h R1), (map_out _ h R2); try done; intros; by apply insert_after_out. }
  assert (Pc : concat (r_rings (rstep (LLink x h) s)) ≡ₚ x :: concat (r_rings s)).
  { rewrite Er, E, !concat_app. cbn. rewrite <- !app_assoc. cbn. rewrite !(app_assoc (concat R1) a). apply perm_mid. }
  assert (Pl : r_loose s ≡ₚ x :: without x (r_loose s)).
  { destruct (split_at x (r_loose s) Hx N3) as (c & d & -> & Hc & Hd). rewrite without_app, without_self, !without_out by done. symmetry. apply Permutation_middle. }
  assert (Pt : concat (r_rings (rstep (LLink x h) s)) ++ r_loose (rstep (LLink x h) s) ≡ₚ concat (r_rings s) ++ r_loose s).
  { rewrite Pc. cbn [rstep r_loose]. rewrite Pl at 2. cbn. apply Permutation_middle. }
  split.
  - rewrite Pt. apply NoDup_app. done.
  - intros z. by rewrite D', D, Pt.
  - intros r Hr. rewrite Er in Hr. rewrite elem_of_app, elem_of_cons in Hr.
    assert (Hother : r ∈ R1 ++ R2 -> Forall (joined m') (around r)).
    { intros Hr'. apply (keep_join m m' (fun z => z <> h /\ z <> x /\ z <> y) r).
      - intros z (Z1 & Z2 & Z3). by apply F.
      - apply Forall_forall. intros z Hz.
        assert (Hz1 : z ∈ concat R1 ++ concat R2) by (rewrite <- concat_app; apply in_concat; eauto).
        assert (Hd : z ∉ h :: l).
        { intros X. rewrite E, concat_app in N1. cbn in N1. apply NoDup_app in N1 as (_ & M1 & M2). apply NoDup_app in M2 as (_ & M2 & _).
          assert (X' : z ∈ a ++ h :: b). { unfold l in X. rewrite elem_of_cons, elem_of_app in X. rewrite elem_of_app, elem_of_cons. tauto. }
          apply elem_of_app in Hz1 as [Hz1|Hz1]; [apply (M1 z Hz1); apply elem_of_app; by left|by apply (M2 z X')]. }
        split; [intros ->; apply Hd; left|]. split; [|by intros ->].
        intros ->. apply Hxc. rewrite E, concat_app. cbn. rewrite !elem_of_app in *. tauto.
      - apply J. rewrite E. rewrite elem_of_app in Hr'. rewrite elem_of_app, elem_of_cons. tauto. }
    destruct Hr as [Hr|[->|Hr]]; [apply Hother; rewrite elem_of_app; by left| |apply Hother; rewrite elem_of_app; by right].
    rewrite around_rot. cbn [app around]. rewrite <- (app_assoc _ a). change (b ++ a ++ [h]) with (b ++ (a ++ [h])).
    replace (b ++ a ++ [h]) with (y :: rest) by (unfold l in El; by rewrite <- app_assoc in El). cbn [chain].
    assert (Hs : (chain y rest).*1 ≡ₚ l).
    { pose proof (chain_src h l h) as X. rewrite El in X. cbn in X. injection X as X. by rewrite X. }
    assert (Ht : (chain y rest).*2 = rest) by apply chain_dst.
    assert (Nrest : y ∉ rest). { assert (NoDup (y :: rest)) as X; [|by apply NoDup_cons in X as [X _]]. rewrite <- El. rewrite (Permutation_app_comm l [h]). exact Nr. }
    apply NoDup_cons in Nr as [Nh Nl].
    assert (Hxl : x ∉ h :: l) by (intros X; by apply Hxc, Hin).
    constructor; [|constructor].
    + split; cbn; [by rewrite NX, decide_True|]. rewrite PV. rewrite decide_False by (intros ->; by apply Hxl). by rewrite decide_True.
    + split; cbn; [|by rewrite PV, decide_True]. rewrite NX. rewrite decide_False by (intros ->; apply Hxl; left). by rewrite decide_True.
    + rewrite Forall_forall in Jc |- *. intros [p q] Hpq. pose proof (Jc _ Hpq) as [J1 J2]. cbn in J1, J2.
      assert (Hp : p ∈ l) by (rewrite <- Hs; apply elem_of_list_fmap; exists (p, q); done).
      assert (Hq : q ∈ rest) by (rewrite <- Ht; apply elem_of_list_fmap; exists (p, q); done).
      assert (Hq' : q ∈ h :: l). { assert (q ∈ l ++ [h]) as X by (rewrite El; by right). rewrite elem_of_app, elem_of_list_singleton in X. rewrite elem_of_cons. tauto. }
      split; cbn.
      * rewrite NX. rewrite decide_False by (intros ->; done). rewrite decide_False by (intros ->; apply Hxl; by right). done.
      * rewrite PV. rewrite decide_False by (intros ->; done). rewrite decide_False by (intros ->; done). done.
  - intros z Hz. cbn in Hz. assert (Hz1 : z ∈ r_loose s) by (rewrite Pl; by right).
    assert (Hz2 : z <> x) by (unfold without in Hz; apply elem_of_list_filter in Hz; tauto).
    assert (Hz3 : z ∉ concat (r_rings s)) by (intros X; by apply (N2 z X)).
    rewrite F; [by apply L| | |]; [intros ->; apply Hz3, Hin; left|done|intros ->; by apply Hz3, Hin].
Qed.

Lemma chain_last q l : exists C p, (forall z, chain q (l ++ [z]) = C ++ [(p, z)]) /\ C.*1 ++ [p] = q :: l /\ C.*2 = l.
Proof.
  revert q. induction l as [|y l IH]; intros q; cbn.
  - exists [], q. done.
  - destruct (IH y) as (C & p & H1 & H2 & H3). exists ((q, y) :: C), p. split; [intros z; cbn; by rewrite H1|]. cbn. by rewrite H2, H3.
Qed.

Lemma without_perm x l : NoDup l -> x ∈ l -> l ≡ₚ x :: without x l.
Proof.
  intros N H. destruct (split_at x l H N) as (c & d & -> & Hc & Hd). rewrite without_app, without_self, !without_out by done. symmetry. apply Permutation_middle.
Qed.

Lemma rng_unlink_loose m s x : Rng m s -> x ∈ r_loose s -> PUnlink x m = Ok m /\ Rng m (rstep (LUnlink x) s).
Proof.
  intros [N D J L] Hx. split; [unfold PUnlink, PIsLinked, rd; by rewrite (L x Hx)|].
  pose proof N as N'. apply NoDup_app in N' as (N1 & N2 & N3).
  assert (Er : r_rings (rstep (LUnlink x) s) = r_rings s).
  { cbn. apply (map_out _ x); [intros; by apply without_out|]. intros X. by apply (N2 x X). }
  assert (El : r_loose (rstep (LUnlink x) s) ≡ₚ r_loose s) by (cbn; symmetry; by apply without_perm).
  split.
  - by rewrite Er, El.
  - intros z. by rewrite Er, El.
  - by rewrite Er.
  - intros z. rewrite El. apply L.
Qed.

Lemma rng_unlink m s x : Rng m s -> on_list x s -> exists m', PUnlink x m = Ok m' /\ Rng m' (rstep (LUnlink x) s).
Proof.
  intros [N D J L] Hx. apply NoDup_app in N as (N1 & N2 & N3).
  destruct (ring_of x s N1 Hx) as (R1 & a & b & R2 & E & H1 & H2 & Ha & Hb).
  assert (Jr : Forall (joined m) (around (x :: b ++ a))).
  { change (x :: b ++ a) with ((x :: b) ++ a). rewrite <- around_rot. apply J. rewrite E, elem_of_app. right. left. }
  assert (Nr : NoDup (x :: b ++ a)).
  { rewrite E, concat_app in N1. cbn in N1. apply NoDup_app in N1 as (_ & _ & N1). apply NoDup_app in N1 as (N1 & _ & _).
    change (x :: b ++ a) with ((x :: b) ++ a). by rewrite Permutation_app_comm. }
  assert (Hin : forall z, z ∈ x :: b ++ a -> z ∈ concat (r_rings s)).
  { intros z Hz. rewrite E, concat_app. cbn. rewrite !elem_of_app. right. left. rewrite elem_of_cons, elem_of_app in Hz. rewrite elem_of_cons. tauto. }
  (* the neighbours *)
  assert (exists p q, joined m (p, x) /\ joined m (x, q) /\ p ∈ x :: b ++ a /\ q ∈ x :: b ++ a /\
    forall m', m' !! x = Some (Node None None) ->
      (forall z, z <> x -> nx m' z = if decide (z = p) then Some q else nx m z) ->
      (forall z, z <> x -> pv m' z = if decide (z = q) then Some p else pv m z) -> Forall (joined m') (around (b ++ a))) as (p & q & Jp & Jq & Hp & Hq & Hnew).
  { destruct (b ++ a) as [|q l]; cbn [around app chain] in Jr.
    - exists x, x. apply Forall_cons in Jr as [Jr _]. repeat split; try apply Jr; try left.
    - destruct (chain_last q l) as (C & p & C1 & C2 & C3). rewrite C1 in Jr. apply Forall_cons in Jr as [Jq Jr]. apply Forall_app in Jr as [Jc Jp].
      apply Forall_cons in Jp as [Jp _]. exists p, q. split; [done|]. split; [done|]. apply NoDup_cons in Nr as [Nx Nl].
      assert (Hpl : p ∈ q :: l) by (rewrite <- C2, elem_of_app; right; left).
      split; [by right|]. split; [right; left|]. intros m' _ NX PV. cbn [around]. rewrite C1. apply Forall_app. split.
      + rewrite Forall_forall in Jc. apply Forall_forall. intros [u v] Huv. pose proof (Jc _ Huv) as [K1 K2]. cbn in K1, K2.
        assert (Hu : u ∈ C.*1) by (apply elem_of_list_fmap; exists (u, v); done).
        assert (Hv : v ∈ l) by (rewrite <- C3; apply elem_of_list_fmap; exists (u, v); done).
        assert (Hu' : u ∈ q :: l) by (rewrite <- C2, elem_of_app; by left).
        split; cbn.
        * rewrite NX by (intros ->; done). rewrite decide_False; [done|]. intros ->. rewrite <- C2 in Nl. apply NoDup_app in Nl as (_ & Nl & _). apply (Nl p Hu). left.
        * rewrite PV by (intros ->; apply Nx; by right). rewrite decide_False; [done|]. intros ->. apply NoDup_cons in Nl as [Nl _]. done.
      + constructor; [|constructor]. split; cbn; [rewrite NX by (intros ->; done)|rewrite PV by (intros ->; apply Nx; left)]; by rewrite decide_True. }
  destruct (unlink_ok x p q m) as (m' & -> & D' & X & NX & PV & F); [apply (joined_dom _ _ Jp)|apply (joined_dom _ _ Jq)|apply Jq|apply Jp|].
  exists m'. split; [done|].
  assert (Er : r_rings (rstep (LUnlink x) s) = R1 ++ (a ++ b) :: R2).
  { cbn. rewrite E, fmap_app. cbn. rewrite without_app, without_self, !without_out by done.
    rewrite (map_out _ x R1), (map_out _ x R2); try done; intros; by apply without_out. }
  assert (Hxl : x ∉ r_loose s) by by apply N2.
  assert (El : r_loose (rstep (LUnlink x) s) = x :: r_loose s) by (cbn; by rewrite without_out).
  assert (Pt : concat (r_rings (rstep (LUnlink x) s)) ++ r_loose (rstep (LUnlink x) s) ≡ₚ concat (r_rings s) ++ r_loose s).
  { rewrite Er, El, E, !concat_app. cbn [concat]. transitivity (x :: (concat R1 ++ (a ++ b) ++ concat R2) ++ r_loose s); [symmetry; apply Permutation_middle|].
    rewrite <- (Permutation_middle a b x). cbn [app]. by rewrite <- (Permutation_middle (concat R1)). }
  split.
  - rewrite Pt. apply NoDup_app. done.
  - intros z. by rewrite D', D, Pt.
  - intros r Hr. rewrite Er in Hr. rewrite elem_of_app, elem_of_cons in Hr.
    assert (Hother : r ∈ R1 ++ R2 -> Forall (joined m') (around r)).
    { intros Hr'. apply (keep_join m m' (fun z => z <> x /\ z <> p /\ z <> q) r).
      - intros z (Z1 & Z2 & Z3). by apply F.
      - apply Forall_forall. intros z Hz.
        assert (Hz1 : z ∈ concat R1 ++ concat R2) by (rewrite <- concat_app; apply in_concat; eauto).
        assert (Hd : z ∉ x :: b ++ a).
        { intros Y. rewrite E, concat_app in N1. cbn in N1. apply NoDup_app in N1 as (_ & M1 & M2). apply NoDup_app in M2 as (_ & M2 & _).
          assert (X' : z ∈ a ++ x :: b). { rewrite elem_of_cons, elem_of_app in Y. rewrite elem_of_app, elem_of_cons. tauto. }
          apply elem_of_app in Hz1 as [Hz1|Hz1]; [apply (M1 z Hz1); apply elem_of_app; by left|by apply (M2 z X')]. }
        split; [intros ->; apply Hd; left|]. split; intros ->; done.
      - apply J. rewrite E. rewrite elem_of_app in Hr'. rewrite elem_of_app, elem_of_cons. tauto. }
    destruct Hr as [Hr|[->|Hr]]; [apply Hother; rewrite elem_of_app; by left| |apply Hother; rewrite elem_of_app; by right].
    rewrite around_rot. by apply Hnew.
  - intros z Hz. rewrite El in Hz. apply elem_of_cons in Hz as [->|Hz]; [done|].
    assert (Hz3 : z ∉ concat (r_rings s)) by (intros Y; by apply (N2 z Y)).
    rewrite F; [by apply L| | |]; intros ->; apply Hz3; [done|by apply Hin|by apply Hin].
Qed.

Lemma rng_self m s x : Rng m s -> x ∈ r_loose s -> exists m', PSelf x m = Ok m' /\ Rng m' (rstep (LSelf x) s).
Proof.
  intros [N D J L] Hx. pose proof N as N'. apply NoDup_app in N' as (N1 & N2 & N3). unfold PSelf.
  assert (Hd : is_Some (m !! x)) by (apply D; rewrite elem_of_app; by right).
  destruct (wr_prev_ok x (Some x) m Hd) as (m1 & -> & D1 & P1 & X1 & F1). cbn.
  destruct (wr_next_ok x (Some x) m1) as (m2 & -> & D2 & X2 & P2 & F2); [by apply D1|].
  exists m2. split; [done|].
  pose proof (without_perm x _ N3 Hx) as Pl.
  assert (Pt : concat (r_rings (rstep (LSelf x) s)) ++ r_loose (rstep (LSelf x) s) ≡ₚ concat (r_rings s) ++ r_loose s).
  { cbn [rstep r_rings r_loose concat app]. rewrite Pl at 2. by rewrite <- Permutation_middle. }
  split.
  - by rewrite Pt.
  - intros z. by rewrite D2, D1, D, Pt.
  - intros r Hr. cbn in Hr. apply elem_of_cons in Hr as [->|Hr].
    + cbn. constructor; [|constructor]. split; cbn; [by rewrite X2, decide_True|]. by rewrite P2, P1, decide_True.
    + apply (keep_join m m2 (fun z => z <> x) r); [intros z Z; by rewrite F2, F1| |by apply J].
      apply Forall_forall. intros z Hz ->. apply (N2 x); [apply in_concat; eauto|done].
  - intros z Hz. cbn in Hz. assert (z <> x /\ z ∈ r_loose s) as [Z1 Z2] by (unfold without in Hz; apply elem_of_list_filter in Hz; tauto).
    rewrite F2, F1 by done. by apply L.
Qed.

Lemma rng_new m s x : Rng m s -> ~ on_list x s -> x ∉ r_loose s -> Rng (PNew x m) (rstep (LNew x) s).
Proof.
  intros [N D J L] H1 H2. unfold PNew. split.
  - cbn. rewrite <- Permutation_middle. apply NoDup_cons. rewrite elem_of_app. unfold on_list in H1. tauto.
  - intros z. cbn. rewrite <- Permutation_middle, elem_of_cons, <- D. destruct (decide (z = x)) as [->|Z].
    + rewrite lookup_insert. split; [by left|]. intros _. eauto.
    + rewrite lookup_insert_ne by done. tauto.
  - intros r Hr. cbn in Hr. apply (keep_join m _ (fun z => z <> x) r); [intros z Z; by rewrite lookup_insert_ne| |by apply J].
    apply Forall_forall. intros z Hz ->. apply H1. apply in_concat. eauto.
  - intros z Hz. cbn in Hz. apply elem_of_cons in Hz as [->|Hz]; [by rewrite lookup_insert|].
    rewrite lookup_insert_ne by (intros ->; done). by apply L.
Qed.
Lemma rng_free m s x : Rng m s -> x ∈ r_loose s -> exists m', PFree x m = Ok m' /\ Rng m' (rstep (LFree x) s).
Proof.
  intros [N D J L] Hx. pose proof N as N'. apply NoDup_app in N' as (N1 & N2 & N3). unfold PFree, rd. rewrite (L x Hx). cbn.
  eexists. split; [done|]. pose proof (without_perm x _ N3 Hx) as Pl.
  assert (Pt : x :: concat (r_rings s) ++ without x (r_loose s) ≡ₚ concat (r_rings s) ++ r_loose s).
  { rewrite Pl at 2. by rewrite <- Permutation_middle. }
  rewrite <- Pt in N. apply NoDup_cons in N as [N4 N5].
  split.
  - done.
  - intros z. cbn. specialize (D z). rewrite <- Pt, elem_of_cons in D. destruct (decide (z = x)) as [->|Z].
    + rewrite lookup_delete. split; [by intros []|done].
    + rewrite lookup_delete_ne by done. tauto.
  - intros r Hr. cbn in Hr. apply (keep_join m _ (fun z => z <> x) r); [intros z Z; by rewrite lookup_delete_ne| |by apply J].
    apply Forall_forall. intros z Hz ->. apply (N2 x); [apply in_concat; eauto|done].
  - intros z Hz. cbn in Hz. assert (z <> x /\ z ∈ r_loose s) as [Z1 Z2] by (unfold without in Hz; apply elem_of_list_filter in Hz; tauto).
    rewrite lookup_delete_ne by done. by apply L.
Qed.

Lemma rng_step m s o : Rng m s -> lawful_link o s -> exists m', pstep o m = Ok m' /\ Rng m' (rstep o s).
Proof.
  intros R H. destruct o as [x|x|x h|x|x]; cbn [lawful_link pstep] in *.
  - eexists. split; [done|]. apply rng_new; tauto.
  - by apply rng_self.
  - destruct H. by apply rng_link.
  - destruct H as [H|H]; [by apply rng_unlink|]. exists m. by apply rng_unlink_loose.
  - by apply rng_free.
Qed.
Lemma rng_reach m s : lreach m s -> Rng m s.
Proof.
  induction 1 as [|m s o m' R IH Hl E].
  - split; cbn; [constructor| |by intros r ?%elem_of_nil|by intros r ?%elem_of_nil].
    intros x. rewrite lookup_empty. split; [by intros []|by intros ?%elem_of_nil].
  - destruct (rng_step m s o IH Hl) as (m2 & E2 & R2). rewrite E in E2. by injection E2 as <-.
Qed.

(** ** Walking *)
Lemma follow_next m x l : x ∉ l -> forall fuel cur, (length l < fuel)%nat -> Forall (joined m) (chain cur (l ++ [x])) -> follow n_next m fuel x cur = Some l.
Proof.
  induction l as [|y l IH]; intros Hx [|fuel] cur Hf J; try (cbn in Hf; lia); cbn [app chain] in J; apply Forall_cons in J as [[J1 _] J];
    cbn in J1; destruct (nx_some _ _ _ J1) as (n & E1 & E2); cbn [follow]; rewrite E1, E2.
  - by rewrite decide_True.
  - apply not_elem_of_cons in Hx as [Hx1 Hx2]. rewrite decide_False by done. rewrite IH; [done|done|cbn in Hf; lia|done].
Qed.
Lemma follow_prev m x l : x ∉ l -> forall fuel cur, (length l < fuel)%nat -> Forall (joined m) (chain x (l ++ [cur])) -> follow n_prev m fuel x cur = Some (rev l).
Proof.
  induction l as [|y l IH] using rev_ind; intros Hx [|fuel] cur Hf J; try (cbn in Hf; lia); try (rewrite app_length in Hf; cbn in Hf; lia).
  - cbn [app chain] in J. apply Forall_cons in J as [[_ J1] J]. cbn in J1. destruct (pv_some _ _ _ J1) as (n & E1 & E2). cbn [follow]. rewrite E1, E2.
    by rewrite decide_True.
  - rewrite <- app_assoc in J. cbn [app] in J. rewrite chain_app in J. apply Forall_app in J as [J J2]. cbn [chain] in J2.
    apply Forall_cons in J2 as [[_ J1] _]. cbn in J1. destruct (pv_some _ _ _ J1) as (n & E1 & E2). cbn [follow]. rewrite E1, E2.
    rewrite elem_of_app, elem_of_list_singleton in Hx. rewrite decide_False by (intros ->; apply Hx; by right). rewrite app_length in Hf. cbn in Hf.
    rewrite IH; [|tauto|lia|done]. by rewrite rev_app_distr.
Qed.
Lemma ring_small (m : pheap) l : NoDup l -> (forall x, x ∈ l -> is_Some (m !! x)) -> (length l <= size m)%nat.
Proof.
  intros N H. unfold size, map_size. rewrite <- (fmap_length fst (map_to_list m)). apply submseteq_length. apply NoDup_submseteq; [done|].
  intros x Hx. destruct (H x Hx) as [n E]. apply elem_of_list_fmap. exists (x, n). split; [done|]. by apply elem_of_map_to_list.
Qed.

Lemma list_walks m s : lreach m s ->
  (forall a x b, a ++ x :: b ∈ r_rings s -> forward m x = Some (b ++ a) /\ backward m x = Some (rev (b ++ a)) /\ PIsLinked x m = Ok true) /\
  (forall x, x ∈ r_loose s -> PIsLinked x m = Ok false).
Proof.
  intros R. apply rng_reach in R as [N D J L]. split.
  - intros a x b Hr. pose proof (J _ Hr) as Jr. rewrite around_rot in Jr. cbn [app around] in Jr.
    assert (Hn : NoDup (x :: b ++ a)).
    { apply NoDup_app in N as (N & _ & _). apply elem_of_list_split in Hr as (R1 & R2 & E). rewrite E, concat_app in N. cbn in N.
      apply NoDup_app in N as (_ & _ & N). apply NoDup_app in N as (N & _ & _). change (x :: b ++ a) with ((x :: b) ++ a). by rewrite Permutation_app_comm. }
    assert (Hs : (S (length (b ++ a)) <= size m)%nat).
    { apply (ring_small m (x :: b ++ a) Hn). intros y Hy. apply D. rewrite elem_of_app. left. apply in_concat. exists (a ++ x :: b). split; [done|].
      rewrite elem_of_cons, elem_of_app in Hy. rewrite elem_of_app, elem_of_cons. tauto. }
    apply NoDup_cons in Hn as [Hn _]. unfold forward, backward. split; [|split].
    + apply follow_next; [done|lia|done].
    + apply follow_prev; [done|lia|done].
    + unfold PIsLinked. assert (exists y, joined m (x, y)) as [y [J1 _]].
      { destruct (b ++ a); cbn [app chain] in Jr; apply Forall_cons in Jr as [Jr _]; eauto. }
      assert (exists y, joined m (y, x)) as [z [_ J2]].
      { destruct (chain_last x (b ++ a)) as (C & p & C1 & _). rewrite C1 in Jr. apply Forall_app in Jr as [_ Jr]. apply Forall_cons in Jr as [Jr _]. eauto. }
      cbn in J1, J2. destruct (nx_some _ _ _ J1) as (n & E1 & E2). unfold pv in J2. rewrite E1 in J2. cbn in J2. unfold rd. rewrite E1. cbn. by rewrite E2, J2.
  - intros x Hx. unfold PIsLinked, rd. by rewrite (L x Hx).
Qed.
Lemma list_progress m s o : lreach m s -> lawful_link o s -> exists m', pstep o m = Ok m'.
Proof. intros R H. destruct (rng_step m s o (rng_reach m s R) H) as (m' & E & _). eauto. Qed.
