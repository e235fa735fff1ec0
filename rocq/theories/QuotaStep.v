(** What the cache operations used by the quota aggregator do to its list of entries, most recently inserted first. *)
From Verif Require Import Base Proto Signature OpAgg Lru LruSpec LruSim Timeout Agg QuotaAgg QuotaFuel QuotaSim.
From stdpp Require Import gmap list.
Local Open Scope Z_scope.
Set Implicit Arguments.

(** An entry: the object's address, when it was (last) inserted, and its contents. *)
Record cell := Cell { c_addr : nat; c_time : Z; c_elem : quota_elem }.
Definition c_key (x : cell) : string := qe_signature (c_elem x).

Section step.
Variable ord : hash_order.
Variable clk : nat -> Z.
Variable cf : quota_config.
Variables mx idle : Z.
Notation del := (OnCacheEntryDelete ord clk cf).
Notation pool := (pool quota_elem quota_request).
Notation Shape := (Shape mx idle).
Implicit Types (u : pool) (l : list cell) (L P : list node) (x : cell).

(** ** Entries *)
Definition refreshed (t : Z) (e : quota_elem) : quota_elem := cleared (set_qe_last t (set_qe_in_flight true e)).
Definition pending (e : quota_elem) : bool := negb (qe_in_flight e) && is_aggregated e.
Definition after_reinsert (tk : nat) (it : list quota_request) (e : quota_elem) : quota_elem * nat * list quota_request :=
  if pending e then (refreshed (clk tk) e, S tk, it ++ [ReturnAllocateQuotaRequest ord cf e]) else (e, tk, it).
Definition doomed (fl : bool) (tk : nat) (e : quota_elem) : bool :=
  if fl then true else expiration_interval_in_cycle cf <=? clk tk - qe_last e.
Definition rd (fl : bool) (tk : nat) : nat := if fl then tk else S tk.

(** Removing the entries [olds], oldest first: the entries that come back, and the ticks and items afterwards. *)
Fixpoint purge (fl : bool) (olds : list cell) (tk : nat) (it : list quota_request) : list cell * nat * list quota_request :=
  match olds with
  | [] => ([], tk, it)
  | x :: rest =>
      if doomed fl tk (c_elem x) then purge fl rest (rd fl tk) it
      else
        let r := after_reinsert (S (rd fl tk)) it (c_elem x) in
        let s := purge fl rest r.1.2 r.2 in
        (s.1.1 ++ [Cell (c_addr x) (clk (rd fl tk)) r.1.1], s.1.2, s.2)
  end.
Definition expire (fl : bool) l (tk : nat) (it : list quota_request) : list cell * nat * list quota_request :=
  if idle <? 0 then (l, tk, it)
  else
    let s := purge fl (rev (filter (fun x => c_time x < clk tk - idle) l)) (S tk) it in
    (s.1.1 ++ filter (fun x => ~ c_time x < clk tk - idle) l, s.1.2, s.2).
(** Making room for one entry among [olds], oldest first: those that come back, those not looked at, ticks, items. *)
Fixpoint squeeze (fl : bool) (olds : list cell) (tk : nat) (it : list quota_request) : option (list cell * list cell * nat * list quota_request) :=
  match olds with
  | [] => None
  | x :: rest =>
      if doomed fl tk (c_elem x) then Some ([], rest, rd fl tk, it)
      else match squeeze fl rest (S (rd fl tk)) it with
           | None => None
           | Some (re, rem, tk2, it2) =>
               let r := after_reinsert tk2 it2 (c_elem x) in
               Some (re ++ [Cell (c_addr x) (clk (rd fl tk)) r.1.1], rem, r.1.2, r.2)
           end
  end.
Definition insert_new (fl : bool) l (a : nat) (e : quota_elem) (tk : nat) (it : list quota_request) : option (list cell * nat * list quota_request) :=
  if Z.of_nat (length l) <? mx then Some (Cell a (clk tk) e :: l, S tk, it)
  else match squeeze fl (rev l) (S tk) it with
       | None => None
       | Some (re, rem, tk2, it2) => Some (re ++ Cell a (clk tk) e :: rev rem, tk2, it2)
       end.

(** ** The entries of a cache *)
Definition same u (p : node) x : Prop :=
  e_key p.2 = c_key x /\ e_value p.2 = c_addr x /\ e_last p.2 = c_time x /\ p_vals u !! c_addr x = Some (c_elem x).
Record Rep (J : list node) (c : lru nat) u L l : Prop := {
  rep_shape : Shape J c L;
  rep_same : Forall2 (same u) L l;
  rep_addrs : NoDup (c_addr <$> l);
  rep_fresh : forall a, a ∈ c_addr <$> l -> (a < p_next u)%nat }.
Definition free_pins L : Prop := Forall (fun p => e_pin p.2 = 0) L.
Definition held_pins L : Prop := Forall (fun p => e_pin p.2 = 1) L.

Lemma rep_keys J c u L l : Rep J c u L l -> keys L = c_key <$> l.
Proof.
  intros [_ F _ _]. unfold keys. induction F as [|p x L l H F IH]; [done|]. rewrite !fmap_cons. f_equal; [|done]. apply H.
Qed.
Lemma rep_len J c u L l : Rep J c u L l -> length L = length l.
Proof. intros [_ F _ _]. by eapply Forall2_length. Qed.
Lemma same_other u u' p x : (forall a, a = c_addr x -> p_vals u' !! a = p_vals u !! a) -> same u p x -> same u' p x.
Proof. intros E (? & ? & ? & ?). split_and!; try done. by rewrite E. Qed.
Lemma rep_other J c u u' L l : (forall a, a ∈ c_addr <$> l -> p_vals u' !! a = p_vals u !! a) -> p_next u' = p_next u -> Rep J c u L l -> Rep J c u' L l.
Proof.
  intros E N [S F A B]. constructor; try done.
  - clear S A B. induction F as [|p x L l H F IH]; [constructor|]. constructor.
    + eapply same_other; [|exact H]. intros a ->. apply E. set_solver.
    + apply IH. intros a Ha. apply E. set_solver.
  - by rewrite N.
Qed.
Lemma rep_cache J c c' u L l : Shape J c' L -> Rep J c u L l -> Rep J c' u L l.
Proof. intros S []. by constructor. Qed.
Lemma rep_val J c u L l x : Rep J c u L l -> x ∈ l -> p_vals u !! c_addr x = Some (c_elem x).
Proof.
  intros [_ F _ _] H. induction F as [|p y L l Hs F IH]; [by apply elem_of_nil in H|].
  apply elem_of_cons in H as [->|H]; [apply Hs|by apply IH].
Qed.

Lemma add_item_app {A} (q : A) it : add_item never_merge q it = it ++ [q].
Proof. unfold add_item. by destruct (last it). Qed.

(** Dropping the object of [a] does not concern the other entries. *)
Lemma rep_free J c u L l a : Rep J c u L l -> a ∉ c_addr <$> l ->
  Rep J c (Pool (delete a (p_vals u)) (p_next u) (p_items u)) L l.
Proof. intros R H. apply (@rep_other J c u _ L l); [|done|exact R]. intros b Hb. cbn. rewrite lookup_delete_ne; [done|congruence]. Qed.
(** Changing the contents of one entry. *)
Lemma rep_assign J c u L1 L2 l1 l2 p x e : Rep J c u (L1 ++ p :: L2) (l1 ++ x :: l2) -> length L1 = length l1 -> qe_signature e = c_key x ->
  Rep J c (assign (c_addr x) e u) (L1 ++ p :: L2) (l1 ++ Cell (c_addr x) (c_time x) e :: l2).
Proof.
  intros [S F A B] Hl Hk. apply Forall2_app_inv in F as [F1 F2]; [|done]. apply Forall2_cons in F2 as [Hs F2].
  rewrite fmap_app, fmap_cons in A, B. apply NoDup_app in A as (A1 & A2 & A3). apply NoDup_cons in A3 as [A3 A4].
  constructor.
  - done.
  - apply Forall2_app; [|constructor].
    + clear -F1 A2. induction F1 as [|q y L l Hq F IH]; [constructor|]. constructor.
      * eapply same_other; [|exact Hq]. intros a ->. cbn. rewrite lookup_insert_ne; [done|]. intros E. apply (A2 (c_addr x)); [rewrite E|]; set_solver.
      * apply IH. intros a Ha. apply A2. set_solver.
    + destruct Hs as (? & ? & ? & ?). split_and!; cbn; try done. { unfold c_key. cbn. congruence. } by rewrite lookup_insert.
    + clear -F2 A3. induction F2 as [|q y L l Hq F IH]; [constructor|]. constructor.
      * eapply same_other; [|exact Hq]. intros a ->. cbn. rewrite lookup_insert_ne; [done|]. intros E. apply A3. set_solver.
      * apply IH. set_solver.
  - rewrite fmap_app, fmap_cons. apply NoDup_app. split_and!; [done|done|]. by apply NoDup_cons.
  - rewrite fmap_app, fmap_cons. done.
Qed.
Lemma rep_items J c u it L l : Rep J c u L l -> Rep J c (with_items it u) L l.
Proof. intros R. by apply (@rep_other J c u _ L l). Qed.

(** Reinserting at the front. *)
Lemma rep_pushed J c u L l a e : Rep J c u L l -> p_vals u !! a = Some e -> a ∉ c_addr <$> l -> (a < p_next u)%nat -> qe_signature e ∉ c_key <$> l ->
  Rep J (pushed (qe_signature e) a (clk (l_tick c)) c) u ((l_next_id c, Elem (qe_signature e) a 1 1 (clk (l_tick c))) :: L) (Cell a (clk (l_tick c)) e :: l).
Proof.
  intros R Hv Ha Hn Hk. pose proof (rep_keys R) as K. destruct R as [S F A B]. constructor.
  - apply shape_pushed; [done|]. by rewrite K.
  - constructor; [|done]. done.
  - cbn. by apply NoDup_cons.
  - cbn. intros b [->|Hb]%elem_of_cons; [done|auto].
Qed.
Lemma rep_unpinned J c u L1 L2 i e l : Rep J c u (L1 ++ (i, e) :: L2) l -> Rep J (unpinned i e c) u (L1 ++ (i, set_pin 0 e) :: L2) l.
Proof.
  intros [S F A B]. constructor; try done; [by apply shape_unpinned|].
  apply Forall2_app_inv_l in F as (l1 & l2 & F1 & F2 & ->). apply Forall2_cons_inv_l in F2 as (x & l3 & H & F3 & ->).
  apply Forall2_app; [done|]. by constructor.
Qed.
Lemma rep_buried J c u i e L l : Rep ((i, e) :: J) c u L l -> Rep J (buried i c) u L l /\ is_Some (l_heap c !! i).
Proof. intros [S F A B]. apply shape_buried in S as [S ?]. split; [by constructor|done]. Qed.
Lemma rep_taken J c u L1 L2 p l1 l2 x : Rep J c u (L1 ++ p :: L2) (l1 ++ x :: l2) -> length L1 = length l1 ->
  Rep (p :: J) (taken p.1 p.2 c) u (L1 ++ L2) (l1 ++ l2) /\ e_value p.2 = c_addr x /\ p_vals u !! c_addr x = Some (c_elem x) /\
  c_addr x ∉ c_addr <$> (l1 ++ l2) /\ (c_addr x < p_next u)%nat /\ c_key x ∉ c_key <$> (l1 ++ l2).
Proof.
  intros R Hl. pose proof (rep_keys R) as K. destruct R as [S F A B]. apply Forall2_app_inv in F as [F1 F2]; [|done]. apply Forall2_cons in F2 as [Hs F2].
  pose proof (sh_keys S) as NK. rewrite K in NK. rewrite !fmap_app, !fmap_cons in *.
  rewrite <- Permutation_middle in A, NK. apply NoDup_cons in A as [A1 A2]. apply NoDup_cons in NK as [NK1 NK2].
  destruct Hs as (H1 & H2 & H3 & H4). split_and!; try done.
  - constructor.
    + destruct p as [i e]. by apply shape_taken.
    + by apply Forall2_app.
    + by rewrite fmap_app.
    + intros a Ha. apply B. rewrite fmap_app in Ha. set_solver.
  - apply B. set_solver.
Qed.

Lemma deref_some u a e : p_vals u !! a = Some e -> deref a u = Ok e.
Proof. intros H. unfold deref. by rewrite H. Qed.

(** ** The deleter when there is room *)
Lemma del_room fl n k a e J c u L l : Rep J c u L l -> Z.of_nat (length L) < mx -> (2 <= n)%nat ->
  p_vals u !! a = Some e -> a ∉ c_addr <$> l -> (a < p_next u)%nat -> qe_signature e ∉ c_key <$> l ->
  if doomed fl (l_tick c) e then
    exists c' u', del fl n k a (c, u) = Ok (c', u') /\ Rep J c' u' L l /\ l_tick c' = rd fl (l_tick c) /\ p_items u' = p_items u /\ p_next u' = p_next u
  else
    let r := after_reinsert (S (rd fl (l_tick c))) (p_items u) e in let t := clk (rd fl (l_tick c)) in
    exists c' u' i, del fl n k a (c, u) = Ok (c', u') /\ Rep J c' u' ((i, Elem (qe_signature e) a 0 1 t) :: L) (Cell a t r.1.1 :: l) /\
      l_tick c' = r.1.2 /\ p_items u' = r.2 /\ p_next u' = p_next u.
Proof.
  intros R Hm Hn Hv Ha Hlt Hk. destruct n as [|[|n]]; [lia|lia|]. 
  remember (S n) as n1 eqn:En1. cbn [OnCacheEntryDelete]. cbn [fst snd]. rewrite (deref_some _ _ Hv). cbn [obind].
  unfold doomed, ShouldDrop, read_now.
  assert (forall c', Rep J c' u L l -> exists c2 u2, (let! u0 := free a u in Ok (c', u0)) = Ok (c2, u2) /\ Rep J c2 u2 L l /\ l_tick c2 = l_tick c' /\ p_items u2 = p_items u /\ p_next u2 = p_next u) as Drop.
  { intros c' R'. unfold free. rewrite Hv. cbn [obind]. eexists _, _. split; [reflexivity|]. split; [by apply rep_free|done]. }
  destruct fl.
  - cbn [rd]. apply Drop in R as (? & ? & ? & ? & ? & ? & ?). eauto 10.
  - cbn [rd]. destruct (expiration_interval_in_cycle cf <=? clk (l_tick c) - qe_last e) eqn:Ed; cbn [negb].
    + assert (Rep J (after_now c) u L l) as R' by (eapply rep_cache; [|exact R]; apply shape_now, R).
      apply Drop in R' as (? & ? & ? & ? & ? & ? & ?). eauto 10.
    + assert (Rep J (after_now c) u L l) as R' by (eapply rep_cache; [|exact R]; apply shape_now, R).
      pose proof (rep_keys R) as K. rewrite (@insert_eq mx idle clk _ _ J _ _ L) by (try apply R'; by rewrite K).
      pose proof (rep_pushed R' Hv Ha Hlt Hk) as R2. subst n1.
      rewrite (@gc_room mx idle _ _ J _ _ _ n _ (rep_shape R2)) by (cbn [length]; lia). cbn [obind].
      erewrite (@release_eq mx idle clk _ _ J _ _ []); [|exact (rep_shape R2)|done..]. cbn [app length].
      destruct (Z.ltb_spec mx (Z.of_nat (S (length L)))); [lia|]. cbn [obind fst snd].
      pose proof (@rep_unpinned J _ _ [] _ _ _ _ R2) as R3. cbn [app] in R3.
      rewrite (deref_some _ _ Hv). cbn [obind]. unfold after_reinsert, pending.
      destruct (negb (qe_in_flight e) && is_aggregated e).
      * eexists _, _, _. split; [reflexivity|]. split_and!; try done.
        -- apply rep_items. eapply rep_cache; [apply shape_now; apply R3|]. exact (@rep_assign J _ _ [] L [] l _ _ (refreshed (clk (S (S (l_tick c)))) e) R3 eq_refl eq_refl).
        -- cbn. by rewrite add_item_app.
      * eexists _, _, _. split; [reflexivity|]. done.
Qed.

(** ** Expiry *)
Lemma last_ids L p : last (L ++ [p]).*1 = Some p.1.
Proof. rewrite fmap_app. apply last_snoc. Qed.

Lemma idle_ok fl m n thr lst olds G g c u S0 : Rep [] c u (G ++ S0) (g ++ rev olds) -> length G = length g -> free_pins (G ++ S0) ->
  Z.of_nat (length (G ++ S0)) <= mx -> (2 <= m)%nat -> (length olds + 2 <= n)%nat -> (forall i j, (i <= j)%nat -> clk i <= clk j) ->
  thr <= clk (l_tick c) -> Forall (fun x => thr <= c_time x) g -> Forall (fun x => c_time x < thr) olds ->
  StronglySorted (fun x y => c_time x <= c_time y) olds -> Forall (fun x => lst <= c_time x + 1) olds ->
  let r := purge fl olds (l_tick c) (p_items u) in
  exists c' u' L', idle_loop (del fl m) n thr lst (last (G ++ S0).*1) (c, u) = Ok (c', u') /\
    Rep [] c' u' L' (r.1.1 ++ g) /\ free_pins L' /\ l_tick c' = r.1.2 /\ p_items u' = r.2 /\ p_next u' = p_next u /\ (length L' <= length (G ++ S0))%nat.
Proof.
  revert n lst G g c u S0. induction olds as [|x olds IH]; intros n lst G g c u S0 R HG Hp Hm Hm2 Hn Hmono Ht Hg Ho Hs Hlst; cbn [purge].
  - assert (S0 = []) as ->.
    { pose proof (rep_len R) as E. rewrite !app_length in E. cbn in E. destruct S0; [done|cbn in E; lia]. }
    rewrite app_nil_r in *. cbn in R. rewrite app_nil_r in R.
    exists c, u, G. split_and!; try done. destruct n as [|n]; [lia|]. cbn [idle_loop].
    destruct (last G.*1) as [i|] eqn:El; [|done]. rewrite fmap_last in El. destruct (last G) as [[i' e]|] eqn:El'; [|done]. injection El as ->.
    apply last_Some in El' as [G' ->]. cbn [fst]. rewrite (@shape_load mx idle [] c _ i e (rep_shape R)) by set_solver. cbn [obind].
    destruct (Z.ltb_spec (e_last e) thr); [|done]. exfalso. pose proof (rep_same R) as F.
    apply Forall2_app_inv_l in F as (l1 & l2 & F1 & F2 & ->). apply Forall2_cons_inv_l in F2 as (y & l3 & Hy & F3 & ->).
    apply Forall_app in Hg as [_ Hg]. apply Forall_cons in Hg as [Hg _]. destruct Hy as (_ & _ & Hy & _). cbn in Hy. lia.
  - cbn [rev] in R.
    assert (exists S1 p, S0 = S1 ++ [p] /\ length S1 = length olds) as (S1 & p & -> & HS1).
    { pose proof (rep_len R) as E. rewrite !app_length, rev_length in E. cbn in E. destruct S0 as [|p S1 _] using rev_ind; [cbn in E; lia|].
      rewrite app_length in E. cbn in E. exists S1, p. split; [done|lia]. }
    rewrite app_assoc in R, Hm, Hp |- *. rewrite (app_assoc g) in R. rewrite last_ids.
    destruct n as [|n]; [lia|]. cbn [idle_loop fst]. destruct p as [i e]. cbn [fst].
    rewrite (@shape_load mx idle [] c _ i e (rep_shape R)) by set_solver. cbn [obind].
    assert (length (G ++ S1) = length (g ++ rev olds)) as HL by (rewrite !app_length, rev_length; lia).
    destruct (@rep_taken [] c u (G ++ S1) [] (i, e) (g ++ rev olds) [] x R HL) as (R1 & Ev & Hv & Ha & Hlt & Hk). cbn [fst snd] in R1, Ev. rewrite !(app_nil_r (g ++ rev olds)) in R1, Ha, Hk. rewrite (app_nil_r (G ++ S1)) in R1.
    assert (e_last e = c_time x /\ e_key e = c_key x) as [El Ek].
    { pose proof (rep_same R) as F. apply Forall2_app_inv in F as [_ F]; [|done]. apply Forall2_cons in F as [(? & _ & ? & _) _]. done. }
    apply Forall_cons in Ho as [Hx Ho]. rewrite El. destruct (Z.ltb_spec (c_time x) thr); [|lia].
    apply Forall_cons in Hlst as [Hlx Hlst]. destruct (Z.leb_spec lst (c_time x + 1)); [|lia]. cbn [obind assert_].
    rewrite (@shape_prev mx idle [] c _ _ _ _ (rep_shape R)). cbn [obind]. rewrite (sh_lru (rep_shape R)), orb_true_r. cbn [obind assert_].
    assert (e_pin e = 0) as Epin by (apply Forall_app in Hp as [_ Hp]; by apply Forall_cons in Hp as [Hp _]).
    rewrite (@remove_eq mx idle clk _ (del fl m) [] c u _ _ _ _ (rep_shape R) Epin).
    rewrite (@discard_eq mx idle clk _ (del fl m) [] c u _ _ _ _ (rep_shape R) Epin). rewrite Ev.
    assert (Z.of_nat (length (G ++ S1)) < mx) as Hroom by (rewrite app_length in Hm; cbn [length] in Hm; lia).
    pose proof (@del_room fl m (e_key e) _ _ _ _ _ _ _ R1 Hroom Hm2 Hv Ha Hlt Hk) as D. change (l_tick (taken i e c)) with (l_tick c) in D.
    apply StronglySorted_inv in Hs as [Hs Hsx].
    assert (Forall (fun y => c_time x <= c_time y + 1) olds) as Hlst' by (eapply Forall_impl; [exact Hsx|cbn; intros; lia]).
    assert (free_pins (G ++ S1)) as Hp1 by (by apply Forall_app in Hp as [? _]).
    destruct (doomed fl (l_tick c) (c_elem x)).
    + destruct D as (c1 & u1 & E1 & R2 & T1 & I1 & N1). rewrite E1. cbn [obind fst snd].
      destruct (rep_buried R2) as [R3 [? Hh]]. rewrite Hh. cbn [obind].
      assert (thr <= clk (l_tick (buried i c1))) as Ht3.
      { change (l_tick (buried i c1)) with (l_tick c1). rewrite T1. etrans; [exact Ht|]. apply Hmono. destruct fl; cbn; lia. }
      destruct (IH n (c_time x) G g (buried i c1) u1 S1 R3 HG Hp1 ltac:(lia) Hm2 ltac:(cbn [length] in Hn; lia) Hmono Ht3 Hg Ho Hs Hlst') as (c' & u' & L' & E' & R' & P' & T' & I' & N' & Len').
      change (l_tick (buried i c1)) with (l_tick c1) in *. rewrite T1, I1 in *.
      exists c', u', L'. split_and!; try done; [congruence|]. rewrite (app_length _ [_]). cbn. lia.
    + cbn zeta in D. cbn zeta. set (r := after_reinsert _ _ _) in *. destruct D as (c1 & u1 & i1 & E1 & R2 & T1 & I1 & N1). rewrite E1. cbn [obind fst snd].
      destruct (rep_buried R2) as [R3 [? Hh]]. rewrite Hh. cbn [obind].
      set (p1 := (i1, _)) in *. set (x1 := Cell _ _ _) in *.
      assert (thr <= clk (rd fl (l_tick c))) as Ht1 by (etrans; [exact Ht|]; apply Hmono; destruct fl; cbn; lia).
      assert ((rd fl (l_tick c) <= r.1.2)%nat) as Hr by (subst r; unfold after_reinsert; destruct (pending _); cbn; lia).
      assert (thr <= clk (l_tick (buried i c1))) as Ht3.
      { change (l_tick (buried i c1)) with (l_tick c1). rewrite T1. etrans; [exact Ht1|]. by apply Hmono. }
      change (p1 :: G ++ S1) with ((p1 :: G) ++ S1) in R3. change (x1 :: g ++ rev olds) with ((x1 :: g) ++ rev olds) in R3.
      assert (free_pins ((p1 :: G) ++ S1)) as Hp3 by (by constructor).
      assert (length (p1 :: G) = length (x1 :: g)) as HG3 by (cbn; lia).
      assert (Forall (fun y => thr <= c_time y) (x1 :: g)) as Hg3 by (by constructor).
      assert (Z.of_nat (length ((p1 :: G) ++ S1)) <= mx) as Hm3 by (cbn [app length] in *; lia).
      destruct (IH n (c_time x) (p1 :: G) (x1 :: g) (buried i c1) u1 S1 R3 HG3 Hp3 Hm3 Hm2 ltac:(cbn [length] in Hn; lia) Hmono Ht3 Hg3 Ho Hs Hlst') as (c' & u' & L' & E' & R' & P' & T' & I' & N' & Len').
      change (l_tick (buried i c1)) with (l_tick c1) in *. rewrite T1, I1 in *. cbn [fst snd]. rewrite <- app_assoc. cbn [app].
      exists c', u', L'. split_and!; try done.
      * rewrite <- E'. destruct (G ++ S1) as [|q Q] eqn:EQ.
        -- apply app_eq_nil in EQ as [-> ->]. cbn [app fmap list_fmap last].
           destruct n as [|n]; [lia|]. cbn [idle_loop]. destruct olds; [|cbn in HS1; lia].
           cbn [fst]. rewrite (@shape_load mx idle [] _ _ p1.1 p1.2 (rep_shape R3)) by (destruct p1; set_solver). cbn [obind].
           destruct (Z.ltb_spec (e_last p1.2) thr) as [Hbad|]; [cbn in Hbad; lia|]. done.
        -- change ((p1 :: G) ++ S1) with (p1 :: G ++ S1). rewrite EQ. cbn [fmap list_fmap]. done.
      * congruence.
      * rewrite (app_length _ [_]). cbn [app length] in *. lia.
Qed.
End step.
