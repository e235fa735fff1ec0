(** Lookups that leave the eviction order alone, scoped lookups and the iterator of the cache.

    Vocabulary and proofs for C75 and C76. *)
From stdpp Require Import gmap.
From Verif Require Import Base Proto Lru LruSim LruOps LruOps2 LruSpec LruInv LruBooks LruStep LruProofs LruClaims LruOrder.
Local Open Scope Z_scope.
Set Implicit Arguments.
Local Arguments sum_Z : simpl never.

(** ** Vocabulary *)
Section vocabulary.
Context {V : Type} `{!EqDecision V}.
Variable clk : nat -> Z.
Variable ord : hash_order.

(** simple_lru_cache_inl.h:250-260 the constructors of ScopedLookup: a lookup with the options given (the first
    constructor uses the default ones).  The loop bound is the one of [step].
    [update] is options.update_eviction_order(), simple_lru_cache_inl.h:197-210. *)
Definition scoped_begin (update : bool) (k : string) (c : lru V) : outcome (lru V * option V * list (string * V)) :=
  let! wr := LookupWithOptions recorder clk (2 + l_next_id c) update k (c, []) in Ok (wr.1.1, wr.2, wr.1.2).
(** simple_lru_cache_inl.h:262-264 the destructor of ScopedLookup: releases with the same options what was found. *)
Definition scoped_end (update : bool) (k : string) (r : option V) (c : lru V) : outcome (lru V * list (string * V)) :=
  match r with
  | Some v => let! w := ReleaseWithOptions recorder clk update k v (c, []) in Ok w
  | None => Ok (c, [])
  end.

(** A program that only opens and closes scoped lookups, in any order; [SEnd n] closes the n-th of the open ones,
    most recently opened first. *)
Inductive scoped := SBegin (k : string) | SEnd (n : nat).
(** [scopes] runs such a program with one setting of the option.  It returns the cache, the scoped lookups still
    open with what they found, everything found so far and everything handed to the deleter. *)
Record outcome_of := Scoped {
  so_cache : lru V; so_open : list (string * option V); so_found : list (string * option V); so_destroyed : list (string * V) }.
Definition scoped_step (update : bool) (o : scoped) (s : outcome_of) : outcome outcome_of :=
  match o with
  | SBegin k =>
      let! crx := scoped_begin update k (so_cache s) in
      Ok (Scoped crx.1.1 ((k, crx.1.2) :: so_open s) (so_found s ++ [(k, crx.1.2)]) (so_destroyed s ++ crx.2))
  | SEnd n =>
      match so_open s !! n with
      | Some kr =>
          let! cx := scoped_end update kr.1 kr.2 (so_cache s) in
          Ok (Scoped cx.1 (delete n (so_open s)) (so_found s) (so_destroyed s ++ cx.2))
      | None => Ok s
      end
  end.
Fixpoint scopes (update : bool) (p : list scoped) (s : outcome_of) : outcome outcome_of :=
  match p with
  | [] => Ok s
  | o :: p' => let! s := scoped_step update o s in scopes update p' s
  end.

(** simple_lru_cache_inl.h:107-151, 1021-1042 the iterator, and 476-481 begin() and end(): it goes through the table
    and copies the key, the value pointer and the last-use time of each element it stops at.
    Simplification: one uninterrupted pass; comparing with end() is reaching the end of the list. *)
Fixpoint iterate_from (it : list (string * nat)) (c : lru V) : outcome (list (string * V * Z)) :=
  match it with
  | [] => Ok []
  | kid :: it' =>
      let! e := load kid.2 c in
      let! l := iterate_from it' c in
      Ok ((kid.1, e_value e, e_last e) :: l)
  end.
Definition Iterate (c : lru V) : outcome (list (string * V * Z)) := iterate_from (ho_list ord (l_table c)) c.
End vocabulary.
Arguments so_cache {V}. Arguments so_open {V}. Arguments so_found {V}. Arguments so_destroyed {V}. Arguments Scoped {V}.

Section proofs.
Context {V : Type} `{!EqDecision V}.
Implicit Types (c : lru V) (e : elem V).
Variable clk : nat -> Z.
Variable ord : hash_order.
Hypothesis clock : proper_clock clk.

(** ** The iterator *)
Lemma iterate_ok cf c h : reach clk ord cf c h -> exists l, Iterate ord c = Ok l /\
  l.*1 ≡ₚ b_cached (books_of clk cf h) /\ NoDup l.*1.*1 /\ forall y, y ∈ l -> last_use y.1 (books_of clk cf h) = Some y.2.
Proof.
  intros H. destruct (reach_good clock H) as (s & R & I & _). set (b := books_of clk cf h) in *.
  unfold Iterate. pose proof (ho_perm ord (l_table c)) as Hp.
  assert (Hin : forall kid, kid ∈ ho_list ord (l_table c) -> exists e, l_heap c !! kid.2 = Some e /\ e ∈ cached_elems s /\ e_key e = kid.1).
  { intros [k n] X. rewrite Hp in X. apply elem_of_map_to_list in X. pose proof (table_is k R) as Y. rewrite X in Y. exact Y. }
  assert (N : NoDup (ho_list ord (l_table c)).*1) by (rewrite Hp; apply NoDup_fst_map_to_list).
  assert (G : exists l, iterate_from (ho_list ord (l_table c)) c = Ok l /\ l.*1.*1 = (ho_list ord (l_table c)).*1 /\
            forall y, y ∈ l -> exists e, e ∈ cached_elems s /\ y = (e_key e, e_value e, e_last e)).
  { clear Hp N. induction (ho_list ord (l_table c)) as [|kid it IH].
    - exists []. split_and!; [done|done|]. intros y Y. by apply elem_of_nil in Y.
    - destruct (Hin kid (elem_of_list_here _ _)) as (e & He & Hc & Hk). destruct IH as (l & El & Ek & Hl).
      { intros kid' X. apply Hin. by right. }
      exists ((kid.1, e_value e, e_last e) :: l). cbn [iterate_from]. unfold load. rewrite He. cbn [obind]. rewrite El. cbn [obind].
      split_and!; [done|by rewrite !fmap_cons, Ek|]. intros y Y. apply elem_of_cons in Y as [->|Y]; [|by apply Hl]. exists e. by rewrite Hk. }
  destruct G as (l & El & Ek & Hl). exists l. split_and!; [done| |by rewrite Ek|].
  - apply NoDup_Permutation.
    + eapply NoDup_fmap_1. by rewrite Ek.
    + rewrite (iv_cached I). eapply (NoDup_fmap_1 fst). rewrite <- list_fmap_compose. exact (rep_keys R).
    + intros x. split.
      * intros X. apply elem_of_list_fmap in X as (y & -> & Y). apply Hl in Y as (e & He & ->). cbn [fst]. by apply (cached_kv I).
      * intros X. rewrite (iv_cached I) in X. apply elem_of_list_fmap in X as (e & -> & He).
        assert (Y : e_key e ∈ l.*1.*1).
        { rewrite Ek, Hp. destruct R as (L & P & D & A). destruct (cached_id A He) as (n & Hn & _).
          apply elem_of_list_fmap. exists (e_key e, n). split; [done|]. by apply elem_of_map_to_list. }
        apply elem_of_list_fmap in Y as (x & E & Y). apply elem_of_list_fmap in Y as (y & -> & Y).
        apply elem_of_list_fmap. exists y. split; [|done]. apply Hl in Y as (e2 & H2 & ->). cbn [fst] in *.
        assert (e = e2) as -> by (by eapply (nodup_inj e_key); [exact (rep_keys R)| | |]). done.
  - intros y Y. apply Hl in Y as (e & He & ->). cbn [fst snd]. change (e_key e, e_value e) with (kv e). by apply (inv_last_use I).
Qed.
Lemma iterate_reads cf c h l : reach clk ord cf c h -> Iterate ord c = Ok l ->
  forall k v t, (k, v, t) ∈ l <-> peek clk c k = Some v /\ GetLastUseTime k c = Ok t.
Proof.
  intros H E k v t. destruct (reach_good clock H) as (s & R & I & _). destruct (iterate_ok H) as (l2 & E2 & Hp & N & Hl).
  rewrite E in E2. injection E2 as <-. rewrite (peek_is k v R I). split.
  - intros X. assert (Y : (k, v) ∈ b_cached (books_of clk cf h)) by (rewrite <- Hp; apply elem_of_list_fmap; by exists (k, v, t)).
    split; [done|]. destruct (last_use_is R I Y) as (t2 & T & ->). f_equal. apply Hl in X. cbn in X. congruence.
  - intros [X Y]. destruct (last_use_is R I X) as (t2 & T & Y2). rewrite Y in Y2. injection Y2 as <-.
    rewrite <- Hp in X. apply elem_of_list_fmap in X as ([[k3 v3] t3] & E3 & X). cbn [fst] in E3. injection E3 as -> ->.
    pose proof (Hl _ X) as Z0. cbn in Z0. assert (t3 = t) as <- by congruence. done.
Qed.

(** ** Lookups that leave the order alone *)
(** What the argument needs of the cache the lookups start from. *)
Record base c : Prop := {
  ba_elem : forall k n, l_table c !! k = Some n -> exists e, l_heap c !! n = Some e /\ e_key e = k /\ 0 <= e_pin e /\ (Overfull c = true -> 0 < e_pin e);
  ba_defer : forall k n e l, l_table c !! k = Some n -> l_heap c !! n = Some e -> l_defer c !! k = Some l ->
    scan_deferred l (e_value e) c = Ok None }.
Lemma reach_base cf c h : reach clk ord cf c h -> base c.
Proof.
  intros H. destruct (reach_good clock H) as (s & R & I & B & _). split.
  - intros k n E. pose proof (table_is k R) as X. rewrite E in X. destruct X as (e & He & Hc & Hk). exists e. split_and!; [done|done| |].
    + pose proof (rep_pos R) as F. rewrite Forall_forall in F. apply F. by apply cached_all.
    + intros O. destruct B as [B|B]; [|rewrite Forall_forall in B; by apply B]. exfalso. destruct R as (L & P & D & A & _).
      unfold Overfull in O. apply Z.ltb_lt in O. rewrite (ab_units A), (ab_max A) in O. lia.
  - intros k n e l E He Hd. pose proof (table_is k R) as X. rewrite E in X. destruct X as (e2 & He2 & Hc & Hk).
    rewrite He in He2. injection He2 as <-. pose proof (rep_vals R) as N. destruct R as (L & P & D & A).
    pose proof (scan_def clk k (e_value e) A) as S. rewrite Hd in S. destruct S as [[S _]|(id & e2 & _ & H2 & _ & Hv & _)]; [done|].
    exfalso. rewrite all_cached, fmap_app in N. apply NoDup_app in N as (_ & N & _).
    apply (N (e_value e)); [by apply elem_of_list_fmap_1|]. rewrite <- Hv. apply elem_of_list_fmap_1.
    rewrite (ab_def (proj1 A)). by apply (elem_of_list_fmap_1 snd _ (id, e2)).
Qed.

(** How many of the open lookups found the element [n]. *)
Definition on c (n : nat) (open : list (string * option V)) : Z :=
  Z.of_nat (length (filter (fun y => l_table c !! y.1 = Some n) open)).
Definition extra c (open : list (string * option V)) (n : nat) : Z :=
  match l_heap c !! n with
  | Some e => if (e_pin e =? 0) && (0 <? on c n open) then e_units e else 0
  | None => 0
  end.
Definition extras c open : Z := sum_Z ((fun kn => extra c open kn.2) <$> map_to_list (l_table c)).
(** The cache [c] with the open lookups' pins. *)
Record raised c open (c' : lru V) : Prop := {
  ra_heap : forall n, l_heap c' !! n = (fun e => set_pin (e_pin e + on c n open) e) <$> l_heap c !! n;
  ra_same : c' = set_pinned (l_pinned c + extras c open) (set_heap (l_heap c') c);
  ra_open : forall k r, (k, r) ∈ open -> r = match l_table c !! k with Some n => e_value <$> l_heap c !! n | None => None end }.

Lemma set_pin_same e : set_pin (e_pin e) e = e.
Proof. by destruct e. Qed.
Lemma extras_nil c : extras c [] = 0.
Proof.
  unfold extras. generalize (map_to_list (l_table c)) as l. intros l. induction l as [|x l IH]; [done|]. csimpl. rewrite sum_Z_cons, IH.
  unfold extra, on. cbn. destruct (l_heap c !! x.2) as [e|]; [|done]. by rewrite andb_false_r.
Qed.
Lemma raised_start c : raised c [] c.
Proof.
  split.
  - intros n. unfold on. cbn. destruct (l_heap c !! n) as [e|]; [|done]. cbn. by rewrite Z.add_0_r, set_pin_same.
  - rewrite extras_nil, Z.add_0_r. by destruct c.
  - intros k r X. by apply elem_of_nil in X.
Qed.
Lemma raised_closed c c' : raised c [] c' -> c' = c.
Proof.
  intros [H E _]. rewrite extras_nil, Z.add_0_r in E. rewrite E. replace (l_heap c') with (l_heap c); [by destruct c|].
  apply map_eq. intros n. rewrite H. unfold on. cbn. destruct (l_heap c !! n) as [e|]; [|done]. cbn. by rewrite Z.add_0_r, set_pin_same.
Qed.
(** Pins are a function of the multiset of open lookups. *)
Lemma on_perm c n o1 o2 : o1 ≡ₚ o2 -> on c n o1 = on c n o2.
Proof. intros E. unfold on. by rewrite E. Qed.
Lemma on_cons c n k r o : on c n ((k, r) :: o) = (if decide (l_table c !! k = Some n) then 1 else 0) + on c n o.
Proof. unfold on. rewrite filter_cons. cbn [fst]. destruct (decide (l_table c !! k = Some n)); cbn [length]; lia. Qed.
Lemma on_pos c n o : 0 <= on c n o.
Proof. unfold on. lia. Qed.
Lemma extras_cons c k r n e o : base c -> l_table c !! k = Some n -> l_heap c !! n = Some e ->
  extras c ((k, r) :: o) = extras c o + (if (e_pin e =? 0) && (on c n o =? 0) then e_units e else 0).
Proof.
  intros B E He. unfold extras.
  assert (X : (k, n) ∈ map_to_list (l_table c)) by by apply elem_of_map_to_list.
  apply elem_of_list_split in X as (l1 & l2 & X). pose proof (NoDup_fst_map_to_list (l_table c)) as N. 
  assert (Hin : forall y, y ∈ map_to_list (l_table c) -> l_table c !! y.1 = Some y.2).
  { intros [k' n'] Y. by apply elem_of_map_to_list in Y. }
  rewrite X in *. rewrite fmap_app, fmap_cons in N. apply NoDup_app in N as (_ & N1 & N). apply NoDup_cons in N as [N2 _].
  assert (O : forall y, y ∈ l1 \/ y ∈ l2 -> extra c ((k, r) :: o) y.2 = extra c o y.2).
  { intros y Y. assert (y.1 <> k).
    { intros Ey. destruct Y as [Y|Y].
      - apply (N1 k); [rewrite <- Ey; by apply elem_of_list_fmap_1|]. left.
      - apply N2. cbn [fst]. rewrite <- Ey. by apply elem_of_list_fmap_1. }
    unfold extra. destruct (l_heap c !! y.2) as [e'|] eqn:E'; [|done]. rewrite on_cons.
    rewrite decide_False; [done|]. intros Z0. rewrite E in Z0. injection Z0 as Z0.
    assert (T : l_table c !! y.1 = Some y.2). { apply Hin. rewrite elem_of_app, elem_of_cons. tauto. }
    destruct (ba_elem B _ T) as (e1 & H1 & K1 & _). destruct (ba_elem B _ E) as (e2 & H2 & K2 & _). rewrite Z0 in H2. congruence. }
  assert (S : forall l, (forall y, y ∈ l -> extra c ((k, r) :: o) y.2 = extra c o y.2) ->
              sum_Z ((fun kn => extra c ((k, r) :: o) kn.2) <$> l) = sum_Z ((fun kn : string * nat => extra c o kn.2) <$> l)).
  { intros l. induction l as [|y l IH]; [done|]. intros F. csimpl. rewrite !sum_Z_cons, (F y (elem_of_list_here _ _)). f_equal. apply IH. intros z Z0. apply F. by right. }
  rewrite !fmap_app, !fmap_cons, !sum_Z_app, !sum_Z_cons. rewrite (S l1), (S l2) by auto. cbn [snd].
  unfold extra at 2 5. rewrite He, on_cons, decide_True by done. pose proof (on_pos c n o).
  destruct (e_pin e =? 0); cbn [andb]; [|lia].
  destruct (0 <? 1 + on c n o) eqn:E1; [|apply Z.ltb_ge in E1; lia].
  destruct (0 <? on c n o) eqn:E2; [apply Z.ltb_lt in E2|apply Z.ltb_ge in E2].
  - destruct (on c n o =? 0) eqn:E3; [apply Z.eqb_eq in E3; lia|lia].
  - destruct (on c n o =? 0) eqn:E3; [lia|apply Z.eqb_neq in E3; lia].
Qed.
Lemma extras_miss c k r o : l_table c !! k = None -> extras c ((k, r) :: o) = extras c o.
Proof.
  intros E. unfold extras. f_equal. apply list_fmap_ext. intros i y _. unfold extra. destruct (l_heap c !! y.2); [|done].
  rewrite on_cons, decide_False by congruence. done.
Qed.
Lemma extras_perm c o1 o2 : o1 ≡ₚ o2 -> extras c o1 = extras c o2.
Proof.
  intros E. unfold extras. f_equal. apply list_fmap_ext. intros i y _. unfold extra. destruct (l_heap c !! y.2); [|done]. by rewrite (on_perm c y.2 E).
Qed.
Lemma raised_perm c o1 o2 c' : o1 ≡ₚ o2 -> raised c o1 c' -> raised c o2 c'.
Proof.
  intros E [H S O]. split.
  - intros n. by rewrite <- (on_perm c n E).
  - by rewrite <- (extras_perm c E).
  - intros k r X. apply O. by rewrite E.
Qed.

(** The part of a lookup after the overdue entries have gone. *)
Lemma quiet_found c o c' k (x : list (string * V)) (w : world (V := V) (U := list (string * V))) fuel : base c -> raised c o c' ->
  RemoveExpiredEntries recorder clk fuel w = Ok (c', x) ->
  exists c2, LookupWithOptions recorder clk fuel false k w = Ok ((c2, x), match l_table c !! k with Some n => e_value <$> l_heap c !! n | None => None end) /\
  raised c ((k, match l_table c !! k with Some n => e_value <$> l_heap c !! n | None => None end) :: o) c2.
Proof.
  intros B [Hh Hs Ho] Hx. unfold LookupWithOptions. rewrite Hx. cbn [obind fst snd].
  assert (Ht : l_table c' = l_table c) by (by rewrite Hs).
  rewrite Ht. destruct (l_table c !! k) as [n|] eqn:E.
  - destruct (ba_elem B _ E) as (e & He & Hk & Hp & _). unfold load. rewrite Hh, He. cbn [fmap option_fmap option_map obind].
    rewrite andb_false_r. eexists. split; [reflexivity|]. cbn [e_pin set_pin]. pose proof (on_pos c n o) as P.
    split.
    + intros m. rewrite on_cons.
      transitivity ((<[n := set_pin (e_pin e + on c n o + 1) (set_pin (e_pin e + on c n o) e)]> (l_heap c')) !! m); [by destruct (e_pin e + on c n o =? 0)|].
      destruct (decide (m = n)) as [->|Hm].
      * rewrite lookup_insert, He, decide_True by done. cbn. f_equal. unfold set_pin. cbn. f_equal. lia.
      * rewrite lookup_insert_ne by done. rewrite Hh, decide_False by congruence. done.
    + rewrite (extras_cons _ _ o B E He). cbn [l_heap store set_heap set_pinned e_units set_pin].
      assert (Q : (e_pin e + on c n o =? 0) = (e_pin e =? 0) && (on c n o =? 0)).
      { destruct (e_pin e + on c n o =? 0) eqn:E1; [apply Z.eqb_eq in E1|apply Z.eqb_neq in E1];
          destruct (e_pin e =? 0) eqn:E2; [apply Z.eqb_eq in E2|apply Z.eqb_neq in E2|apply Z.eqb_eq in E2|apply Z.eqb_neq in E2];
          destruct (on c n o =? 0) eqn:E3; [apply Z.eqb_eq in E3|apply Z.eqb_neq in E3|apply Z.eqb_eq in E3|apply Z.eqb_neq in E3|
            apply Z.eqb_eq in E3|apply Z.eqb_neq in E3|apply Z.eqb_eq in E3|apply Z.eqb_neq in E3]; cbn [andb]; try reflexivity; lia. }
      rewrite <- Q. destruct (e_pin e + on c n o =? 0); rewrite Hs; unfold store, set_pinned, set_heap; cbn; f_equal; lia.
    + intros k' r' X. apply elem_of_cons in X as [X|X]; [|by apply Ho]. injection X as -> ->. rewrite E, He. done.
  - eexists. split; [reflexivity|]. split.
    + intros m. rewrite on_cons, decide_False by congruence. apply Hh.
    + rewrite extras_miss by done. done.
    + intros k' r' X. apply elem_of_cons in X as [X|X]; [|by apply Ho]. injection X as -> ->. by rewrite E.
Qed.
Lemma scan_raised c o c' l v : raised c o c' -> scan_deferred l v c = Ok None -> scan_deferred l v c' = Ok None.
Proof.
  intros [H _ _]. unfold scan_deferred. destruct l as [|h t]; [done|]. generalize (rev t ++ [h]) as ids. intros ids.
  induction ids as [|n ids IH]; [done|]. cbn [scan_ids]. unfold load. rewrite H. destruct (l_heap c !! n) as [e|]; [|done].
  cbn [fmap option_fmap option_map obind e_value set_pin]. destruct (decide (e_value e = v)); [done|]. done.
Qed.
Lemma quiet_release c o c' k r : base c -> raised c ((k, r) :: o) c' ->
  exists c2, scoped_end clk false k r c' = Ok (c2, []) /\ raised c o c2.
Proof.
  intros B [Hh Hs Ho]. pose proof (Ho k r (elem_of_list_here _ _)) as Er. unfold scoped_end.
  assert (Ht : l_table c' = l_table c) by (by rewrite Hs). assert (Hd : l_defer c' = l_defer c) by (by rewrite Hs).
  destruct (l_table c !! k) as [n|] eqn:E.
  - destruct (ba_elem B _ E) as (e & He & Hk & Hp & Hf). rewrite He in Er. cbn in Er. subst r.
    assert (Hr : ReleaseWithOptions recorder clk false k (e_value e) (c', []) = release_cached recorder clk false k (e_value e) (c', [])).
    { unfold ReleaseWithOptions. cbn [fst]. rewrite Hd. destruct (l_defer c !! k) as [l|] eqn:El; [|done].
      rewrite (scan_raised (c := c) l (e_value e) (Build_raised Hh Hs Ho) (ba_defer B _ E He El)). done. }
    rewrite Hr. unfold release_cached. cbn [fst snd]. rewrite Ht, E. unfold load. rewrite Hh, He.
    cbn [fmap option_fmap option_map obind e_value set_pin]. rewrite bool_decide_true by done. cbn [assert_ obind e_pin].
    rewrite on_cons, decide_True by done. pose proof (on_pos c n o) as P.
    assert (E0 : (0 <? e_pin e + (1 + on c n o)) = true) by (apply Z.ltb_lt; lia). rewrite andb_false_r. cbn [e_pin set_pin obind].
    rewrite E0. cbn [assert_ obind].
    replace (set_pin (e_pin e + (1 + on c n o) - 1) (set_pin (e_pin e + (1 + on c n o)) e)) with (set_pin (e_pin e + on c n o) e)
      by (unfold set_pin; cbn; f_equal; lia).
    replace (e_pin e + (1 + on c n o) - 1) with (e_pin e + on c n o) by lia.
    assert (H2 : forall m, (<[n := set_pin (e_pin e + on c n o) e]> (l_heap c')) !! m = (fun e => set_pin (e_pin e + on c m o) e) <$> l_heap c !! m).
    { intros m. destruct (decide (m = n)) as [->|Hm]; [by rewrite lookup_insert, He|]. rewrite lookup_insert_ne by done.
      rewrite Hh, on_cons, decide_False by congruence. done. }
    assert (O2 : forall k' r', (k', r') ∈ o -> r' = match l_table c !! k' with Some n => e_value <$> l_heap c !! n | None => None end).
    { intros k' r' X. apply Ho. by right. }
    pose proof (extras_cons k (Some (e_value e)) o B E He) as X.
    destruct (e_pin e + on c n o =? 0) eqn:E1.
    + apply Z.eqb_eq in E1. assert (P1 : e_pin e = 0) by lia. assert (P2 : on c n o = 0) by lia.
      assert (V0 : Overfull c = false). { destruct (Overfull c) eqn:O; [|done]. specialize (Hf eq_refl). lia. }
      cbn [obind]. set (c2 := set_pinned _ _). 
      assert (V2 : Overfull c2 = false). { rewrite <- V0. unfold c2, Overfull, store, set_pinned, set_heap. cbn. by rewrite Hs. }
      rewrite V2. cbn [obind]. exists c2. split; [done|]. split; [done| |done].
      rewrite P1, P2 in X. cbn in X. unfold c2. cbn [l_heap set_pinned store set_heap].
      rewrite Hs. rewrite X. unfold set_pinned, store, set_heap. cbn. f_equal. unfold set_pin; cbn. lia.
    + apply Z.eqb_neq in E1. cbn [obind]. eexists. split; [reflexivity|]. split; [done| |done].
      assert (Z0 : (e_pin e =? 0) && (on c n o =? 0) = false).
      { destruct (e_pin e =? 0) eqn:E2; [apply Z.eqb_eq in E2|done]. cbn. apply Z.eqb_neq. lia. }
      rewrite Z0 in X. cbn [l_heap store set_heap]. rewrite Hs, X. unfold store, set_pinned, set_heap. cbn. f_equal. lia.
  - subst r. exists c'. split; [done|]. split.
    + intros m. rewrite Hh, on_cons, decide_False by congruence. done.
    + rewrite extras_miss in Hs by done. done.
    + intros k' r' X. apply Ho. by right.
Qed.

(** One scoped lookup at a time: whatever the limit, the cache is as if only the overdue entries had been removed. *)
Lemma quiet_once cf c h k : reach clk ord cf c h -> exists c0 x c1 r,
  step clk ord ORemoveExpired c = Ok (c0, None, x) /\ scoped_begin clk false k c = Ok (c1, r, x) /\ r = peek clk c0 k /\
  scoped_end clk false k r c1 = Ok (c0, []) /\ forall k', GetLastUseTime k' c1 = GetLastUseTime k' c0.
Proof.
  intros H. destruct (progress clock ORemoveExpired H Logic.I) as (c0 & r0 & x & Hx).
  pose proof (reach_step _ _ _ _ _ ORemoveExpired _ _ _ H Logic.I Hx) as H0. pose proof (reach_base H0) as B.
  assert (r0 = None) as ->. { unfold step in Hx. destruct (RemoveExpiredEntries _ _ _ _); [|done..]. cbn in Hx. by injection Hx as _ <- _. }
  assert (Hx2 : RemoveExpiredEntries recorder clk (2 + l_next_id c) (c, []) = Ok (c0, x)).
  { unfold step in Hx. destruct (RemoveExpiredEntries _ _ _ _) as [[]| | |]; [|done..]. cbn in Hx. by injection Hx as <- <-. }
  destruct (quiet_found k _ _ B (raised_start c0) Hx2) as (c1 & E1 & R1).
  destruct (quiet_release B R1) as (c2 & E2 & R2). apply raised_closed in R2 as ->.
  eexists c0, x, c1, _. split_and!; [done|unfold scoped_begin; rewrite E1; cbn; reflexivity| |done|].
  - destruct (reach_good clock H0) as (s & R & I & _). pose proof (table_is k R) as X. unfold peek, Lookup, LookupWithOptions, RemoveExpiredEntries.
    cbn [fst l_idle set_idle Z.leb Z.compare obind l_table]. destruct (l_table c0 !! k) as [n|]; [|done]. destruct X as (e & He & _).
    unfold load. cbn [set_idle l_heap fst snd]. by rewrite He.
  - intros k'. unfold GetLastUseTime. destruct R1 as [Hh Hs _]. replace (l_table c1) with (l_table c0) by (by rewrite Hs).
    destruct (l_table c0 !! k') as [n|]; [|done]. unfold load. rewrite Hh. by destruct (l_heap c0 !! n).
Qed.

Lemma base_peek c k : base c -> peek clk c k = match l_table c !! k with Some n => e_value <$> l_heap c !! n | None => None end.
Proof.
  intros B. unfold peek, Lookup, LookupWithOptions, RemoveExpiredEntries. cbn [fst l_idle set_idle Z.leb Z.compare obind l_table].
  destruct (l_table c !! k) as [n|] eqn:E; [|done]. destruct (ba_elem B _ E) as (e & He & _). unfold load. cbn [set_idle l_heap fst snd]. by rewrite He.
Qed.
(** Any number of overlapping scoped lookups, as long as nothing can expire. *)
Lemma quiet_many_base c : base c -> l_idle c < 0 -> forall p c' o f,
  raised c o c' -> (forall k r, (k, r) ∈ f -> r = peek clk c k) ->
  exists s, scopes clk false p (Scoped c' o f []) = Ok s /\ so_destroyed s = [] /\ raised c (so_open s) (so_cache s) /\
    (forall k r, (k, r) ∈ so_found s -> r = peek clk c k).
Proof.
  intros B Hi p. induction p as [|[k|m] p IH]; intros c' o f R F.
  - by exists (Scoped c' o f []).
  - cbn [scopes scoped_step so_cache so_open so_found so_destroyed].
    assert (Hx : RemoveExpiredEntries recorder clk (2 + l_next_id c') (c', []) = Ok (c', [])).
    { unfold RemoveExpiredEntries. cbn [fst]. rewrite (ra_same R). cbn [l_idle set_pinned set_heap].
      destruct (0 <=? l_idle c) eqn:E; [apply Z.leb_le in E; lia|]. done. }
    destruct (quiet_found k _ _ B R Hx) as (c2 & E2 & R2). unfold scoped_begin. rewrite E2. cbn [obind fst snd].
    apply IH; [done|]. intros k' r' X. apply elem_of_app in X as [X|X]; [by apply F|]. apply elem_of_list_singleton in X.
    injection X as -> ->. symmetry. by apply base_peek.
  - cbn [scopes scoped_step so_cache so_open so_found so_destroyed]. destruct (o !! m) as [[k r]|] eqn:E; [|by apply IH].
    assert (P : o ≡ₚ (k, r) :: delete m o) by (by apply delete_Permutation).
    destruct (quiet_release B (raised_perm P R)) as (c2 & E2 & R2). cbn [fst snd]. rewrite E2. cbn [obind fst snd]. by apply IH.
Qed.
Lemma reach_idle cf c h : reach clk ord cf c h -> l_idle c = b_idle (books_of clk cf h).
Proof.
  intros H. destruct (reach_good clock H) as (s & (L & P & D & A & _) & I & _). by rewrite (ab_idle A), (iv_idle I).
Qed.
Lemma quiet_many cf c h p : reach clk ord cf c h -> b_idle (books_of clk cf h) < 0 ->
  exists s, scopes clk false p (Scoped c [] [] []) = Ok s /\ so_destroyed s = [] /\
    (forall k r, (k, r) ∈ so_found s -> r = peek clk c k) /\
    (forall k, peek clk (so_cache s) k = peek clk c k /\ GetLastUseTime k (so_cache s) = GetLastUseTime k c) /\
    (so_open s = [] -> so_cache s = c).
Proof.
  intros H Hi. pose proof (reach_base H) as B. rewrite <- (reach_idle H) in Hi.
  destruct (quiet_many_base B Hi p (raised_start c) (f := [])) as (s & E & D & R & F); [intros k r X; by apply elem_of_nil in X|].
  exists s. split_and!; [done..| |].
  - intros k. destruct R as [Hh Hs _]. assert (Ht : l_table (so_cache s) = l_table c) by (by rewrite Hs). split.
    + rewrite (base_peek k B). unfold peek, Lookup, LookupWithOptions, RemoveExpiredEntries. cbn [fst l_idle set_idle Z.leb Z.compare obind l_table].
      rewrite Ht. destruct (l_table c !! k) as [n|] eqn:Ek; [|done]. destruct (ba_elem B _ Ek) as (e & He & _). unfold load. cbn [set_idle l_heap fst snd].
      rewrite Hh, He. done.
    + unfold GetLastUseTime. rewrite Ht. destruct (l_table c !! k) as [n|]; [|done]. unfold load. rewrite Hh. by destruct (l_heap c !! n).
  - intros O. rewrite O in R. by apply raised_closed.
Qed.

(** ** Age-based mode *)
Lemma age_ignores cf c h k : reach clk ord cf c h -> cf_lru cf = false ->
  scoped_begin clk false k c = step clk ord (OLookup k) c /\
  (forall r, scoped_end clk false k r c = match r with Some v => let! crx := step clk ord (ORelease k v) c in Ok (crx.1.1, crx.2) | None => Ok (c, []) end).
Proof.
  intros H Hm. assert (Hl : l_lru c = false). { destruct (reach_good clock H) as (s & (L & P & D & A & _) & _ & _ & E & _). by rewrite (ab_lru A), E. }
  destruct (progress clock ORemoveExpired H Logic.I) as (c0 & r0 & x & Hx).
  pose proof (reach_step _ _ _ _ _ ORemoveExpired _ _ _ H Logic.I Hx) as H0.
  assert (Hl0 : l_lru c0 = false). { destruct (reach_good clock H0) as (s & (L & P & D & A & _) & _ & _ & E & _). by rewrite (ab_lru A), E. }
  assert (Hx2 : RemoveExpiredEntries recorder clk (2 + l_next_id c) (c, []) = Ok (c0, x)).
  { unfold step in Hx. destruct (RemoveExpiredEntries _ _ _ _) as [[]| | |]; [|done..]. cbn in Hx. by injection Hx as <- _ <-. }
  split.
  - unfold scoped_begin, step, Lookup, LookupWithOptions. rewrite Hx2. cbn [obind fst snd]. destruct (l_table c0 !! k) as [n|]; [|done].
    destruct (load n c0) as [e| | |]; [|done..]. cbn [obind fst snd]. cbn [l_lru set_pinned]. rewrite Hl0. done.
  - intros [v|]; [|done]. unfold scoped_end, step, Release, ReleaseWithOptions. cbn [fst].
    assert (X : release_cached recorder clk false k v (c, []) = release_cached recorder clk true k v (c, [])).
    { unfold release_cached. cbn [fst snd]. rewrite Hl. done. }
    rewrite X. cbn [fst snd]. match goal with |- (let! w := ?a in _) = _ => destruct a as [[]| | |] end; done.
Qed.
End proofs.
