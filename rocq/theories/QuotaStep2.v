(** Expiry, lookups, insertion into a full cache and removal of everything for the quota aggregator's cache. *)
From Verif Require Import Base Proto Signature OpAgg Lru LruSpec LruSim Timeout Agg QuotaAgg QuotaFuel QuotaSim QuotaStep.
From stdpp Require Import gmap list.
Local Open Scope Z_scope.
Set Implicit Arguments.

Section step.
Variable ord : hash_order.
Variable clk : nat -> Z.
Variable cf : quota_config.
Variables mx idle : Z.
Notation del := (OnCacheEntryDelete ord clk cf).
Notation pool := (pool quota_elem quota_request).
Notation Shape := (Shape mx idle).
Notation Rep := (Rep mx idle).
Implicit Types (u : pool) (l : list cell) (L P : list node) (x : cell).

(** Entries are in the order of their insertion, and none is newer than the clock. *)
Definition tidy l (tk : nat) : Prop :=
  StronglySorted (fun x y => c_time y <= c_time x) l /\ Forall (fun x => 0 <= c_time x <= clk tk) l.

Lemma stale_split thr l : StronglySorted (fun x y => c_time y <= c_time x) l ->
  l = filter (fun x => ~ c_time x < thr) l ++ filter (fun x => c_time x < thr) l.
Proof.
  induction l as [|x l IH]; intros H; [done|]. apply StronglySorted_inv in H as [H Hx]. rewrite !filter_cons.
  destruct (decide (c_time x < thr)) as [Hlt|Hge].
  - rewrite decide_False by tauto. assert (filter (fun x => ~ c_time x < thr) l = []) as ->.
    { apply elem_of_nil_inv. intros y [Hy Hin]%elem_of_list_filter. rewrite Forall_forall in Hx. specialize (Hx y Hin). lia. }
    cbn. f_equal. symmetry. apply filter_all. intros y Hy. rewrite Forall_forall in Hx. specialize (Hx y Hy). lia.
  - rewrite decide_True by done. cbn. f_equal. by apply IH.
Qed.
Lemma sorted_filter {A} (R : A -> A -> Prop) (Q : A -> Prop) `{!forall z, Decision (Q z)} (l : list A) : StronglySorted R l -> StronglySorted R (filter Q l).
Proof.
  induction l as [|x l IH]; intros Hso; [done|]. apply StronglySorted_inv in Hso as [Hso Hx]. rewrite filter_cons. destruct (decide (Q x)); [|by apply IH].
  constructor; [by apply IH|]. apply Forall_forall. intros y [_ Hy]%elem_of_list_filter. rewrite Forall_forall in Hx. by apply Hx.
Qed.
Lemma sorted_snoc {A} (R : A -> A -> Prop) (l : list A) (x : A) : StronglySorted R l -> Forall (fun y => R y x) l -> StronglySorted R (l ++ [x]).
Proof.
  induction l as [|y l IH]; intros H F; cbn; [by repeat constructor|]. apply StronglySorted_inv in H as [H Hy]. apply Forall_cons in F as [F1 F2].
  constructor; [by apply IH|]. apply Forall_app. split; [done|]. by constructor.
Qed.
Lemma sorted_rev {A} (R R' : A -> A -> Prop) (l : list A) : (forall (x y : A), R x y -> R' y x) -> StronglySorted R l -> StronglySorted R' (rev l).
Proof.
  intros HR. induction l as [|x l IH]; intros H; cbn; [constructor|]. apply StronglySorted_inv in H as [H Hx].
  apply sorted_snoc; [by apply IH|]. apply Forall_forall. intros y Hy. apply HR. rewrite Forall_forall in Hx. apply Hx. apply elem_of_list_In. apply in_rev. by apply elem_of_list_In.
Qed.

Lemma expire_ok fl m n c u L l : Rep [] c u L l -> free_pins L -> Z.of_nat (length L) <= mx -> (2 <= m)%nat -> (length l + 2 <= n)%nat ->
  (forall i j, (i <= j)%nat -> clk i <= clk j) -> tidy l (l_tick c) ->
  let r := expire ord clk cf idle fl l (l_tick c) (p_items u) in
  exists c' u' L', RemoveExpiredEntries (del fl m) clk n (c, u) = Ok (c', u') /\
    Rep [] c' u' L' r.1.1 /\ free_pins L' /\ l_tick c' = r.1.2 /\ p_items u' = r.2 /\ p_next u' = p_next u /\ (length L' <= length L)%nat.
Proof.
  intros R Hp Hm Hm2 Hn Hmono [Hs Hb]. unfold expire, RemoveExpiredEntries, DiscardIdle. cbn [fst snd].
  rewrite (sh_idle (rep_shape R)). destruct (Z.leb_spec 0 idle) as [Hi|Hi].
  2: { destruct (Z.ltb_spec idle 0); [|lia]. exists c, u, L. split_and!; done. }
  destruct (Z.ltb_spec idle 0); [lia|]. unfold read_now. set (thr := clk (l_tick c) - idle).
  pose proof (stale_split thr Hs) as El. set (g := filter (fun x => ~ c_time x < thr) l) in *. set (o := filter (fun x => c_time x < thr) l) in *.
  assert (Rep [] (after_now c) u L l) as R1 by (eapply rep_cache; [|exact R]; apply shape_now, R).
  assert (exists G S0, L = G ++ S0 /\ length G = length g) as (G & S0 & -> & HG).
  { pose proof (rep_same R) as F. rewrite El in F. apply Forall2_app_inv_r in F as (G & S0 & F1 & F2 & ->). exists G, S0. split; [done|]. by eapply Forall2_length. }
  rewrite El in R1. rewrite <- (rev_involutive o) in R1.
  assert (Forall (fun x => thr <= c_time x) g) as Fg.
  { apply Forall_forall. intros x [Hx _]%elem_of_list_filter. lia. }
  assert (Forall (fun x => c_time x < thr) (rev o)) as Fo.
  { apply Forall_rev. apply Forall_forall. intros x [Hx _]%elem_of_list_filter. done. }
  assert (length (rev o) <= length l)%nat as Hlen by (rewrite rev_length, El, app_length; lia).
  assert (StronglySorted (fun x y => c_time x <= c_time y) (rev o)) as So.
  { eapply sorted_rev; [|apply sorted_filter; exact Hs]. intros x y. cbn. lia. }
  assert (Forall (fun x => 0 <= c_time x + 1) (rev o)) as Fz.
  { apply Forall_rev. apply Forall_forall. intros x [_ Hx]%elem_of_list_filter. rewrite Forall_forall in Hb. specialize (Hb x Hx). lia. }
  assert (thr <= clk (l_tick (after_now c))) as Ht.
  { cbn. subst thr. specialize (Hmono (l_tick c) (S (l_tick c)) ltac:(lia)). lia. }
  unfold list_tail. rewrite (sh_list (rep_shape R1)).
  destruct (@idle_ok ord clk cf mx idle fl m n thr 0 (rev o) G g (after_now c) u S0 R1 HG Hp Hm Hm2 ltac:(lia) Hmono Ht Fg Fo So Fz) as (c' & u' & L' & E & R' & P' & T' & I' & N' & Len).
  exists c', u', L'. split_and!; try done.
Qed.

(** ** Lookup and Release *)
Lemma find_cell J c u L l k : Rep J c u L l -> k ∈ c_key <$> l -> exists L1 p L2 l1 x l2, L = L1 ++ p :: L2 /\ l = l1 ++ x :: l2 /\ length L1 = length l1 /\ c_key x = k /\ same u p x.
Proof.
  intros R (x & -> & Hx)%elem_of_list_fmap. apply elem_of_list_split in Hx as (l1 & l2 & ->).
  pose proof (rep_same R) as F. apply Forall2_app_inv_r in F as (L1 & L3 & F1 & F2 & ->). apply Forall2_cons_inv_r in F2 as (p & L2 & Hp & F3 & ->).
  exists L1, p, L2, l1, x, l2. split_and!; try done. by eapply Forall2_length.
Qed.
Definition pinned_at (i : nat) (e : elem nat) (c : lru nat) : lru nat := store i (set_pin (e_pin e + 1) e) (set_pinned (l_pinned c + e_units e) c).
Lemma lookup_hit d n k w c u L l1 x l2 : RemoveExpiredEntries d clk n w = Ok (c, u) -> Rep [] c u L (l1 ++ x :: l2) -> free_pins L -> c_key x = k ->
  exists c' L1 p L2, Lru.Lookup d clk n k w = Ok ((c', u), Some (c_addr x)) /\ L = L1 ++ p :: L2 /\ length L1 = length l1 /\ l_tick c' = l_tick c /\
    Rep [] c' u (L1 ++ (p.1, set_pin 1 p.2) :: L2) (l1 ++ x :: l2).
Proof.
  intros E R Hp <-. pose proof (rep_same R) as F. apply Forall2_app_inv_r in F as (L1 & L3 & F1 & F2 & ->). apply Forall2_cons_inv_r in F2 as (p & L2 & Hs & F3 & ->).
  destruct p as [i e]. unfold Lru.Lookup, LookupWithOptions. rewrite E. cbn [obind fst snd].
  assert ((i, e) ∈ L1 ++ (i, e) :: L2) as Hin by set_solver. destruct Hs as (H1 & H2 & H3 & H4). cbn [snd] in *.
  rewrite <- H1, (shape_find (rep_shape R) Hin), (shape_load (rep_shape R) Hin). cbn [obind].
  assert (e_pin e = 0) as Ep by (apply Forall_app in Hp as [_ Hp]; by apply Forall_cons in Hp as [Hp _]).
  rewrite Ep. change (0 =? 0) with true. change (l_lru (set_pinned _ c)) with (l_lru c). rewrite (sh_lru (rep_shape R)). cbn [andb].
  eexists _, L1, (i, e), L2. split; [rewrite H2; reflexivity|]. split_and!; [done|by eapply Forall2_length|done|].
  constructor; try apply R.
  - cbn [fst snd]. eapply shape_store; [apply shape_pinned; apply R|done|]. pose proof (sh_one (rep_shape R)) as O. rewrite Forall_app, Forall_cons in O. apply O.
  - apply Forall2_app; [done|]. constructor; [|done]. done.
Qed.
Lemma lookup_miss d n k w c u L l : RemoveExpiredEntries d clk n w = Ok (c, u) -> Rep [] c u L l -> k ∉ c_key <$> l ->
  Lru.Lookup d clk n k w = Ok ((c, u), None).
Proof.
  intros E R H. unfold Lru.Lookup, LookupWithOptions. rewrite E. cbn [obind fst snd]. rewrite (shape_absent (rep_shape R)); [done|]. by rewrite (rep_keys R).
Qed.
Lemma release_hit d c u u' L1 p L2 l1 x l2 e n : Rep [] c u (L1 ++ (p.1, set_pin 1 p.2) :: L2) (l1 ++ x :: l2) -> length L1 = length l1 -> free_pins (L1 ++ p :: L2) ->
  Z.of_nat (length (L1 ++ p :: L2)) <= mx -> qe_signature e = c_key x -> p_vals u' = <[c_addr x := e]> (p_vals u) -> p_next u' = p_next u ->
  exists c', Release d clk (c_key x) (c_addr x) (set_tick n c, u') = Ok (c', u') /\ l_tick c' = n /\
    Rep [] c' u' (L1 ++ (p.1, set_pin 0 p.2) :: L2) (l1 ++ Cell (c_addr x) (c_time x) e :: l2) /\ free_pins (L1 ++ (p.1, set_pin 0 p.2) :: L2).
Proof.
  intros R Hl Hp Hm Hk Hv Hn.
  assert (Rep [] (set_tick n c) u' (L1 ++ (p.1, set_pin 1 p.2) :: L2) (l1 ++ Cell (c_addr x) (c_time x) e :: l2)) as R1.
  { eapply rep_cache; [apply shape_tick; apply R|]. pose proof (@rep_assign mx idle [] c u L1 L2 l1 l2 _ x e R Hl Hk) as R1.
    refine (@rep_other clk mx idle [] c _ u' _ _ _ _ R1); [|done]. intros a _. cbn. by rewrite Hv. }
  pose proof (rep_same R1) as F. apply Forall2_app_inv in F as [_ F]; [|done]. apply Forall2_cons in F as [(K1 & K2 & _) _]. cbn [snd] in K1, K2.
  rewrite (@release_eq mx idle clk _ d [] _ _ _ _ _ _ _ _ (rep_shape R1)); [|done| |done].
  2: { rewrite K1. unfold c_key at 1. cbn. done. }
  destruct (Z.ltb_spec mx (Z.of_nat (length (L1 ++ (p.1, set_pin 1 p.2) :: L2)))) as [Hbad|_].
  { rewrite app_length in *. cbn [length] in *. lia. }
  eexists. split; [reflexivity|]. split; [done|]. split.
  - pose proof (rep_unpinned _ _ _ _ R1) as R2. done.
  - unfold free_pins in *. rewrite Forall_app, Forall_cons in *. cbn. tauto.
Qed.

(** ** A full cache *)
Lemma gc_held d n i P L2 c u w J : Shape J c (P ++ L2) -> held_pins P -> last P.*1 = i -> gc d n i (c, u) = Ok w -> w = (c, u).
Proof.
  revert n i L2. induction P as [|[j e] P IH] using rev_ind; intros n i L2 S H Hi E.
  - cbn in Hi. subst. destruct n as [|n]; [done|]. cbn [gc] in E. destruct (Overfull _); by inversion E.
  - rewrite last_ids in Hi. subst. destruct n as [|n]; [done|]. cbn [gc] in E. destruct (Overfull _); [|by inversion E]. cbn [fst] in E.
    rewrite <- app_assoc in S. cbn in S. rewrite (@shape_load mx idle J c _ j e S) in E by set_solver. cbn [obind] in E.
    rewrite (shape_prev _ _ _ _ S) in E. cbn [obind] in E.
    apply Forall_app in H as [H1 H2]. apply Forall_cons in H2 as [H2 _]. cbn in H2. rewrite H2 in E. change (1 =? 0) with false in E. cbn [obind] in E.
    eapply IH; [exact S|done|reflexivity|exact E].
Qed.

(** With every other entry pinned, an entry that does not fit is inserted again and again: the call can only end with
    the entry deleted under the callers that still use it. *)
Lemma del_stuck fl n k a e J c u P lP w : Rep J c u P lP -> held_pins P -> Z.of_nat (length P) = mx ->
  p_vals u !! a = Some e -> a ∉ c_addr <$> lP -> (a < p_next u)%nat -> qe_signature e ∉ c_key <$> lP ->
  del fl n k a (c, u) = Ok w -> doomed clk cf fl (l_tick c) e = true /\ p_vals w.2 !! a = None.
Proof.
  revert k J c w. induction n as [|n IH]; intros k J c w R HP Hm Hv Ha Hlt Hk E; [done|]. cbn [OnCacheEntryDelete] in E. cbn [fst snd] in E.
  rewrite (deref_some _ _ Hv) in E. cbn [obind] in E. cbn zeta in E. unfold doomed. unfold ShouldDrop, read_now in E.
  assert (forall c', (let! u0 := free a u in Ok (c', u0)) = Ok w -> p_vals w.2 !! a = None) as Drop.
  { intros c'. unfold free. rewrite Hv. cbn [obind]. intros [= <-]. cbn. apply lookup_delete. }
  destruct fl; [split; [done|]; by eapply Drop|].
  destruct (expiration_interval_in_cycle cf <=? clk (l_tick c) - qe_last e); cbn [negb] in E; [split; [done|]; by eapply Drop|]. exfalso.
  assert (Rep J (after_now c) u P lP) as R1 by (eapply rep_cache; [|exact R]; apply shape_now, R).
  rewrite (@insert_eq mx idle clk _ _ J _ _ P) in E by (try apply R1; by rewrite (rep_keys R1)).
  pose proof (@rep_pushed clk mx idle J _ u P lP a e R1 Hv Ha Hlt Hk) as R2. set (p := (_, _) : node) in R2.
  destruct (gc _ n _ _) as [w1| | |] eqn:Eg; try done. cbn [obind] in E.
  assert (held_pins (p :: P)) as HP2 by (by constructor).
  apply (@gc_held _ n _ (p :: P) [] _ u w1 J) in Eg; [|rewrite app_nil_r; apply R2|done|]. 2: { unfold list_tail. rewrite (sh_list (rep_shape R2)). done. }
  subst w1. erewrite (@release_eq mx idle clk _ _ J _ _ []) in E; [|exact (rep_shape R2)|done..]. cbn [app length] in E.
  destruct (Z.ltb_spec mx (Z.of_nat (S (length P)))) as [_|]; [|lia].
  pose proof (@rep_unpinned mx idle J _ _ [] _ _ _ _ R2) as R3. cbn [app] in R3.
  rewrite (@remove_eq mx idle clk _ _ J _ u [] P (l_next_id (after_now c)) (set_pin 0 p.2)) in E; [|apply R3|done].
  rewrite (@discard_eq mx idle clk _ _ J _ u [] P _ _) in E; [|apply R3|done]. cbn [e_value set_pin p snd] in E.
  destruct (@rep_taken clk mx idle J _ u [] P _ [] lP _ R3 eq_refl) as (R4 & _). cbn [app fst snd] in R4.
  match type of E with context [del false n ?kk ?aa ?ww] => destruct (del false n kk aa ww) as [w2| | |] eqn:Ed; try done end.
  cbn [obind] in E. apply (IH _ _ _ _ R4 HP Hm Hv Ha Hlt Hk) in Ed as [_ Hnone].
  destruct (l_heap w2.1 !! _); [|done]. cbn [obind fst snd] in E. unfold deref in E. rewrite Hnone in E. done.
Qed.

Lemma squeeze_cons fl x rest tk it : squeeze ord clk cf fl (x :: rest) tk it =
  if doomed clk cf fl tk (c_elem x) then Some ([], rest, rd fl tk, it)
  else match squeeze ord clk cf fl rest (S (rd fl tk)) it with
       | None => None
       | Some (re, rem, tk2, it2) =>
           let r := after_reinsert ord clk cf tk2 it2 (c_elem x) in
           Some (re ++ [Cell (c_addr x) (clk (rd fl tk)) r.1.1], rem, r.1.2, r.2)
       end.
Proof. done. Qed.
Lemma del_full fl n k x J c u P lP L' l' : Rep J c u (P ++ L') (lP ++ l') -> length P = length lP -> held_pins P -> free_pins L' ->
  Z.of_nat (length (P ++ L')) = mx -> (length l' + 4 <= n)%nat ->
  p_vals u !! c_addr x = Some (c_elem x) -> c_addr x ∉ c_addr <$> (lP ++ l') -> (c_addr x < p_next u)%nat -> c_key x ∉ c_key <$> (lP ++ l') ->
  match squeeze ord clk cf fl (x :: rev l') (l_tick c) (p_items u) with
  | None => forall w, del fl n k (c_addr x) (c, u) <> Ok w
  | Some (re, rem, tk, it) =>
      exists c' u' R L2, del fl n k (c_addr x) (c, u) = Ok (c', u') /\ Rep J c' u' (R ++ P ++ L2) (re ++ lP ++ rev rem) /\ length R = length re /\
        free_pins R /\ free_pins L2 /\ Z.of_nat (length (R ++ P ++ L2)) = mx /\ l_tick c' = tk /\ p_items u' = it /\ p_next u' = p_next u
  end.
Proof.
  revert n k x J c u P lP L'. induction l' as [|y l' IH] using rev_ind; intros n k x J c u P lP L' R HP Pp Pf Hm Hn Hv Ha Hlt Hk.
  - assert (L' = []) as ->. { pose proof (rep_len R) as E. rewrite !app_length in E. cbn in E. destruct L'; [done|cbn in E; lia]. }
    rewrite !app_nil_r in *. cbn [rev squeeze].
    destruct (doomed clk cf fl (l_tick c) (c_elem x)) eqn:Ed.
    2: { intros w E. eapply del_stuck in E as [E _]; try done. congruence. }
    destruct n as [|n]; [lia|]. cbn [OnCacheEntryDelete fst snd]. rewrite (deref_some _ _ Hv). cbn [obind]. cbn zeta.
    unfold doomed in Ed. unfold ShouldDrop, read_now, free. rewrite Hv.
    destruct fl; [|rewrite Ed; cbn [negb]]; cbn [obind]; eexists _, _, [], []; rewrite ?app_nil_r; split_and!; try done; try apply Forall_nil_2.
    + by apply (rep_free clk).
    + eapply rep_cache; [apply shape_now; apply R|]. by apply (rep_free clk).
  - rewrite rev_app_distr. cbn [rev app]. rewrite squeeze_cons. destruct (doomed clk cf fl (l_tick c) (c_elem x)) eqn:Ed.
    + destruct n as [|n]; [lia|]. cbn [OnCacheEntryDelete fst snd]. rewrite (deref_some _ _ Hv). cbn [obind]. cbn zeta.
      unfold doomed in Ed. unfold ShouldDrop, read_now, free. rewrite Hv. cbn [rev]. rewrite rev_involutive.
      destruct fl; [|rewrite Ed; cbn [negb]]; cbn [obind]; eexists _, _, [], L'; cbn [app]; split_and!; try done; try apply Forall_nil_2.
      * by apply (rep_free clk).
      * eapply rep_cache; [apply shape_now; apply R|]. by apply (rep_free clk).
    + assert (fl = false) as -> by (by destruct fl). cbn [rd].
      assert (exists L1 p, L' = L1 ++ [p]) as (L1 & p & ->).
      { pose proof (rep_len R) as E. rewrite !app_length in E. cbn in E. destruct L' as [|p L1 _] using rev_ind; [cbn in E; lia|]. eauto. }
      destruct n as [|n]; [lia|].
      assert (Rep J (after_now c) u (P ++ L1 ++ [p]) (lP ++ l' ++ [y])) as R1 by (eapply rep_cache; [|exact R]; apply shape_now, R).
      pose proof (@rep_pushed clk mx idle J _ u _ _ _ _ R1 Hv Ha Hlt Hk) as R2. set (p0 := (_, _) : node) in R2. set (x0 := Cell _ _ _) in R2.
      change (p0 :: P ++ L1 ++ [p]) with ((p0 :: P) ++ L1 ++ [p]) in R2. change (x0 :: lP ++ l' ++ [y]) with ((x0 :: lP) ++ l' ++ [y]) in R2.
      assert (length ((p0 :: P) ++ L1) = length ((x0 :: lP) ++ l')) as HLen.
      { pose proof (rep_len R2) as E. rewrite !app_length in *. cbn in *. lia. }
      rewrite !app_assoc in R2. destruct (@rep_taken clk mx idle J _ u _ [] p _ [] y R2 HLen) as (R3 & Ev & Hvy & Hay & Hlty & Hky).
      rewrite !(app_nil_r ((p0 :: P) ++ L1)) in R3. rewrite !(app_nil_r ((x0 :: lP) ++ l')) in R3, Hay, Hky.
      assert (length (p0 :: P) = length (x0 :: lP)) as HP3 by (cbn; lia).
      assert (held_pins (p0 :: P)) as Pp3 by (by constructor).
      apply Forall_app in Pf as [Pf1 Pf2]. apply Forall_cons in Pf2 as [Pf2 _].
      assert (Z.of_nat (length ((p0 :: P) ++ L1)) = mx) as Hm3 by (rewrite !app_length in *; cbn [length] in *; lia).
      pose proof (IH n (e_key p.2) y _ _ _ _ _ _ R3 HP3 Pp3 Pf1 Hm3 ltac:(rewrite app_length in Hn; cbn [length] in Hn; lia) Hvy Hay Hlty Hky) as IH1. clear IH.
      match type of IH1 with context [squeeze _ _ _ _ _ ?t _] => change t with (S (S (l_tick c))) in IH1 end.
      (* what the call does up to the nested deleter *)
      assert (del false (S n) k (c_addr x) (c, u) =
        (let! w := (let! w := gc (del false n) n (Some p.1) (pushed (qe_signature (c_elem x)) (c_addr x) (clk (l_tick (after_now c))) (after_now c), u) in
                    Release (del false n) clk (qe_signature (c_elem x)) (c_addr x) w) in
         let! e := deref (c_addr x) w.2 in
         if pending e then
           Ok (after_now w.1, AddRemovedItem (ReturnAllocateQuotaRequest ord cf e) (assign (c_addr x) (refreshed (clk (l_tick w.1)) e) w.2))
         else Ok w)) as ->.
      { cbn [OnCacheEntryDelete fst snd]. rewrite (deref_some _ _ Hv). cbn [obind]. cbn zeta. unfold ShouldDrop, read_now. unfold doomed in Ed. rewrite Ed. cbn [negb].
        rewrite (@insert_eq mx idle clk _ _ J _ _ (P ++ L1 ++ [p])) by (try apply R1; by rewrite (rep_keys R1)).
        unfold list_tail at 1. rewrite (sh_list (rep_shape R2)), last_ids. reflexivity. }
      destruct n as [|n]; [lia|]. destruct n as [|n]; [rewrite app_length in Hn; cbn in Hn; lia|].
      assert (forall m, gc (del false m) (S (S n)) (Some p.1) (pushed (qe_signature (c_elem x)) (c_addr x) (clk (l_tick (after_now c))) (after_now c), u) =
        (let! w := del false m (e_key p.2) (c_addr y) (taken p.1 p.2 (pushed (qe_signature (c_elem x)) (c_addr x) (clk (l_tick (after_now c))) (after_now c)), u) in
         let! w := match l_heap w.1 !! p.1 with None => UB UseAfterFree | Some _ => Ok (buried p.1 w.1, w.2) end in
         gc (del false m) (S n) (last ((p0 :: P) ++ L1).*1) w)) as Egc.
      { intros m. remember (S n) as n1. cbn [gc fst]. rewrite (shape_len (rep_shape R2)).
        destruct (Z.ltb_spec mx (Z.of_nat (length (((p0 :: P) ++ L1) ++ [p])))) as [_|]; [|rewrite !app_length in *; cbn [length] in *; lia].
        destruct p as [i e]. cbn [fst snd] in *. rewrite (@shape_load mx idle J _ _ i e (rep_shape R2)) by set_solver. cbn [obind].
        rewrite (shape_prev _ _ _ _ (rep_shape R2)). cbn [obind]. rewrite Pf2. change (0 =? 0) with true.
        rewrite (@shape_find mx idle J _ _ i e (rep_shape R2)) by set_solver. rewrite bool_decide_true by done. cbn [obind assert_].
        rewrite (@discard_eq mx idle clk _ _ J _ u _ _ _ _ (rep_shape R2) Pf2). rewrite Ev.
        destruct (del false m _ _ _); done. }
      rewrite Egc. clear Egc.
      destruct (squeeze ord clk cf false (y :: rev l') (S (S (l_tick c))) (p_items u)) as [[[[re rem] tk] it]|] eqn:Es.
      * destruct IH1 as (c1 & u1 & R0 & L2 & E1 & R4 & HR & F1 & F2 & Hm4 & T1 & I1 & N1). rewrite E1. cbn [obind fst snd]. clear E1.
        destruct p as [i e]. destruct (rep_buried R4) as [R5 [? Hh]]. cbn [fst snd]. rewrite Hh. cbn [obind].
        rewrite (@gc_room mx idle _ _ J _ _ _ _ _ (rep_shape R5)) by lia. cbn [obind].
        cbn [app] in R5. rewrite (@release_eq mx idle clk _ _ J _ _ _ _ _ _ _ _ (rep_shape R5)); [|done..].
        match goal with |- context [mx <? ?z] => replace (mx <? z) with false by (symmetry; apply Z.ltb_ge; cbn [app] in Hm4; change (Z.of_nat (length (R0 ++ p0 :: P ++ L2)) <= mx); lia) end. cbn [obind fst snd].
        pose proof (rep_unpinned _ _ _ _ R5) as R6.
        assert (p_vals u1 !! c_addr x = Some (c_elem x)) as Hv1 by (apply (rep_val (x:=x0) R6); set_solver).
        rewrite (deref_some _ _ Hv1). cbn [obind]. unfold after_reinsert.
        destruct (pending (c_elem x)).
        -- eexists _, _, (R0 ++ [(p0.1, set_pin 0 p0.2)]), L2. split; [reflexivity|]. rewrite <- !app_assoc. cbn [app]. split_and!; try done.
           ++ apply (rep_items clk). eapply rep_cache; [apply shape_now; apply R6|]. cbn [app fst snd].
              pose proof (@rep_assign mx idle J _ _ R0 (P ++ L2) re (lP ++ rev rem) _ x0 (refreshed (clk tk) (c_elem x)) R6 HR eq_refl) as R7.
              rewrite <- T1 in R7. rewrite <- T1. exact R7.
           ++ rewrite !app_length. cbn. lia.
           ++ apply Forall_app. split; [done|]. by constructor.
           ++ cbn [app] in Hm4. rewrite app_length in Hm4 |- *. cbn [length] in Hm4 |- *. exact Hm4.
           ++ cbn. by rewrite T1.
           ++ cbn. by rewrite add_item_app, I1.
        -- eexists _, _, (R0 ++ [(p0.1, set_pin 0 p0.2)]), L2. split; [reflexivity|]. rewrite <- !app_assoc. cbn [app]. split_and!; try done.
           ++ rewrite !app_length. cbn. lia.
           ++ apply Forall_app. split; [done|]. by constructor.
           ++ cbn [app] in Hm4. rewrite app_length in Hm4 |- *. cbn [length] in Hm4 |- *. exact Hm4.
      * intros w E. destruct (del false (S (S n)) _ _ _) as [w1| | |] eqn:Ed1; try done. by apply (IH1 w1).
Qed.

(** ** Inserting a new entry *)
Lemma insert_ok fl m n a e c u L l : Rep [] c u L l -> free_pins L -> Z.of_nat (length L) <= mx -> 0 < mx -> (length l + 4 <= m)%nat -> (2 <= n)%nat ->
  p_vals u !! a = Some e -> a ∉ c_addr <$> l -> (a < p_next u)%nat -> qe_signature e ∉ c_key <$> l ->
  match insert_new ord clk cf mx fl l a e (l_tick c) (p_items u) with
  | None => forall w, Lru.Insert (del fl m) clk n (qe_signature e) a 1 (c, u) <> Ok w
  | Some (l', tk, it) =>
      exists c' u' L', Lru.Insert (del fl m) clk n (qe_signature e) a 1 (c, u) = Ok (c', u') /\ Rep [] c' u' L' l' /\ free_pins L' /\
        Z.of_nat (length L') <= mx /\ l_tick c' = tk /\ p_items u' = it /\ p_next u' = p_next u
  end.
Proof.
  intros R Hp Hm Hmx Hm4 Hn Hv Ha Hlt Hk. unfold insert_new. rewrite <- (rep_len R).
  rewrite (@insert_eq mx idle clk _ _ [] _ _ L) by (try apply R; by rewrite (rep_keys R)).
  pose proof (@rep_pushed clk mx idle [] _ u L l a e R Hv Ha Hlt Hk) as R2. set (p0 := (_, _) : node) in R2.
  destruct n as [|[|n]]; [lia|lia|].
  destruct (Z.ltb_spec (Z.of_nat (length L)) mx) as [Hroom|Hfull].
  - rewrite (@gc_room mx idle _ _ [] _ _ _ _ _ (rep_shape R2)) by (cbn [length]; lia). cbn [obind].
    erewrite (@release_eq mx idle clk _ _ [] _ _ []); [|exact (rep_shape R2)|done..]. cbn [app length].
    destruct (Z.ltb_spec mx (Z.of_nat (S (length L)))); [lia|].
    pose proof (@rep_unpinned mx idle [] _ _ [] _ _ _ _ R2) as R3. cbn [app] in R3.
    eexists _, _, _. split; [reflexivity|]. split_and!; [exact R3|by constructor|cbn [length]; lia|done..].
  - assert (exists L1 p, L = L1 ++ [p]) as (L1 & p & ->) by (destruct L as [|p L1 _] using rev_ind; [cbn in Hfull; lia|eauto]).
    assert (exists l1 y, l = l1 ++ [y]) as (l1 & y & ->).
    { pose proof (rep_len R) as E. rewrite app_length in E. cbn in E. destruct l as [|y l1 _] using rev_ind; [cbn in E; lia|eauto]. }
    rewrite rev_app_distr. cbn [rev app].
    set (x0 := Cell _ _ _) in *. change (p0 :: L1 ++ [p]) with ((p0 :: L1) ++ [p]) in R2. change (x0 :: l1 ++ [y]) with ((x0 :: l1) ++ [y]) in R2.
    assert (length (p0 :: L1) = length (x0 :: l1)) as HLen.
    { pose proof (rep_len R2) as E. rewrite !app_length in *. cbn in *. lia. }
    destruct (@rep_taken clk mx idle [] _ u _ [] p _ [] y R2 HLen) as (R3 & Ev & Hvy & Hay & Hlty & Hky).
    rewrite !(app_nil_r (p0 :: L1)) in R3. rewrite !(app_nil_r (x0 :: l1)) in R3, Hay, Hky.
    apply Forall_app in Hp as [Pf1 Pf2]. apply Forall_cons in Pf2 as [Pf2 _].
    assert (Z.of_nat (length ([p0] ++ L1)) = mx) as Hm3 by (rewrite !app_length in *; cbn [length] in *; lia).
    assert (held_pins [p0]) as Pp3 by (repeat constructor).
    pose proof (@del_full fl m (e_key p.2) y _ _ u [p0] [x0] L1 l1 R3 eq_refl Pp3 Pf1 Hm3 ltac:(rewrite app_length in Hm4; cbn [length] in Hm4; lia) Hvy Hay Hlty Hky) as D.
    change (l_tick (taken _ _ _)) with (S (l_tick c)) in D.
    unfold list_tail. rewrite (sh_list (rep_shape R2)), last_ids.
    remember (S n) as n1. cbn [gc fst]. rewrite (shape_len (rep_shape R2)).
    destruct (Z.ltb_spec mx (Z.of_nat (length ((p0 :: L1) ++ [p])))) as [_|]; [|rewrite !app_length in *; cbn [length] in *; lia].
    destruct p as [i e0]. cbn [fst snd] in *. rewrite (@shape_load mx idle [] _ _ i e0 (rep_shape R2)) by set_solver. cbn [obind].
    rewrite (shape_prev _ _ _ _ (rep_shape R2)). cbn [obind]. rewrite Pf2. change (0 =? 0) with true.
    rewrite (@shape_find mx idle [] _ _ i e0 (rep_shape R2)) by set_solver. rewrite bool_decide_true by done. cbn [obind assert_].
    rewrite (@discard_eq mx idle clk _ _ [] _ u _ _ _ _ (rep_shape R2) Pf2). rewrite Ev.
    destruct (squeeze ord clk cf fl (y :: rev l1) (S (l_tick c)) (p_items u)) as [[[[re rem] tk] it]|].
    + destruct D as (c1 & u1 & R0 & L2 & E1 & R4 & HR & F1 & F2 & Hm4' & T1 & I1 & N1). rewrite E1. cbn [obind fst snd]. clear E1.
      destruct (rep_buried R4) as [R5 [? Hh]]. rewrite Hh. cbn [obind]. subst n1.
      rewrite (@gc_room mx idle _ _ [] _ _ _ _ _ (rep_shape R5)) by lia. cbn [obind].
      cbn [app] in R5. rewrite (@release_eq mx idle clk _ _ [] _ _ _ _ _ _ _ _ (rep_shape R5)); [|done..].
      match goal with |- context [mx <? ?z] => replace (mx <? z) with false by (symmetry; apply Z.ltb_ge; cbn [app] in Hm4'; change (Z.of_nat (length (R0 ++ p0 :: L2)) <= mx); lia) end.
      pose proof (rep_unpinned _ _ _ _ R5) as R6.
      eexists _, _, _. split; [reflexivity|]. split; [exact R6|]. split_and!; try done.
      * apply Forall_app. split; [done|]. by constructor.
      * cbn [app] in Hm4'. rewrite !app_length in *. cbn [length] in *. lia.
    + intros w E. match type of E with context [del fl m ?kk ?aa ?ww] => destruct (del fl m kk aa ww) as [w1| | |] eqn:Ed1; try done end. by apply (D w1).
Qed.

(** ** FlushAll *)
Lemma ho_elem {A} (tab : gmap string A) k i : (k, i) ∈ ho_list ord tab <-> tab !! k = Some i.
Proof. rewrite (ho_perm ord tab). apply elem_of_map_to_list. Qed.
Lemma ho_nodup {A} (tab : gmap string A) : NoDup (ho_list ord tab).
Proof. rewrite (ho_perm ord tab). apply NoDup_map_to_list. Qed.
Lemma remove_each_ok m ids (M : list node) c u : (1 <= m)%nat -> ids.*2 = M.*1 -> NoDup M.*1 -> NoDup ((fun p => e_value p.2) <$> M) ->
  (forall i e, l_heap c !! i = Some e <-> (i, e) ∈ M) -> Forall (fun p => e_pin p.2 = 0 /\ e_units p.2 = 1) M ->
  (forall i, i ∈ l_list c -> i ∈ M.*1) -> (forall p, p ∈ M -> is_Some (p_vals u !! e_value p.2)) -> l_units c = Z.of_nat (length M) ->
  exists c' u', remove_each (del true m) ids (c, u) = Ok (c', u') /\ l_heap c' = ∅ /\ l_list c' = [] /\ l_units c' = 0 /\
    l_defer c' = l_defer c /\ l_max c' = l_max c /\ l_idle c' = l_idle c /\ l_lru c' = l_lru c /\ l_tick c' = l_tick c /\ p_items u' = p_items u /\ p_next u' = p_next u.
Proof.
  intros Hm. revert ids c u. induction M as [|[i e] M IH]; intros ids c u Hi N1 N2 Hh Hf Hl Hv Hu.
  - destruct ids; [|done]. exists c, u. cbn [remove_each]. split_and!; try done.
    + apply map_empty. intros j. destruct (l_heap c !! j) as [f|] eqn:E; [|done]. apply Hh in E. by apply elem_of_nil in E.
    + apply elem_of_nil_inv. intros j Hj. apply Hl in Hj. by apply elem_of_nil in Hj.
  - destruct ids as [|[k j] ids]; [done|]. cbn in Hi. injection Hi as -> Hi. cbn [remove_each].
    cbn in N1, N2. apply NoDup_cons in N1 as [N1 N1']. apply NoDup_cons in N2 as [N2 N2'].
    apply Forall_cons in Hf as [[Hp He] Hf]. cbn in Hp, He.
    assert (l_heap c !! i = Some e) as Hhi by (apply Hh; constructor).
    destruct (Hv (i, e)) as [q Hq]; [constructor|]. cbn in Hq.
    destruct m as [|m]; [lia|].
    assert (RemoveElem (del true (S m)) i (c, u) =
      Ok (buried i (set_units (l_units c - 1) (Unlink i c)), Pool (delete (e_value e) (p_vals u)) (p_next u) (p_items u))) as ->.
    { unfold RemoveElem, Discard, load. cbn [fst snd]. rewrite Hhi. cbn [obind]. rewrite Hp. change (0 <? 0) with false. cbn [fst snd].
      change (l_heap (Unlink i c)) with (l_heap c). rewrite Hhi. cbn [obind]. rewrite Hp. change (0 =? 0) with true. cbn [assert_ obind].
      cbn [OnCacheEntryDelete fst snd]. rewrite (deref_some _ _ Hq). cbn [obind]. unfold free. rewrite Hq. cbn [obind fst snd].
      change (l_heap (set_units _ _)) with (l_heap c). rewrite Hhi, He. done. }
    cbn [obind].
    destruct (IH ids (buried i (set_units (l_units c - 1) (Unlink i c))) (Pool (delete (e_value e) (p_vals u)) (p_next u) (p_items u))) as (c' & u' & E & ?); try done.
    + intros j f. cbn. rewrite lookup_delete_Some, Hh, elem_of_cons. split.
      * intros [Hne [?|?]]; [congruence|done].
      * intros Hin. split; [|by right]. intros <-. apply N1. apply elem_of_list_fmap. by exists (i, f).
    + intros j. cbn. intros [Hne Hj]%elem_of_list_filter. apply Hl in Hj. cbn in Hj. by apply elem_of_cons in Hj as [?|?].
    + intros p Hin. cbn. rewrite lookup_delete_ne; [apply Hv; by constructor|]. intros E. apply N2. apply elem_of_list_fmap. by exists p.
    + cbn. rewrite Hu. cbn [length]. lia.
    + exists c', u'. split; [exact E|done].
Qed.
Lemma remove_all_ok m c u L l : Rep [] c u L l -> free_pins L -> (1 <= m)%nat ->
  exists c' u', RemoveAll (del true m) ord (c, u) = Ok (c', u') /\ Rep [] c' u' [] [] /\ l_tick c' = l_tick c /\ p_items u' = p_items u /\ p_next u' = p_next u.
Proof.
  intros R Hp Hm. pose proof (rep_shape R) as S.
  assert ((ho_list ord (l_table c)).*2 ≡ₚ L.*1) as P.
  { apply NoDup_Permutation.
    - apply NoDup_fmap_2_strong; [|apply ho_nodup].
      intros [k1 i1] [k2 i2] H1%ho_elem H2%ho_elem E. cbn in E. subst i2.
      apply (sh_table S) in H1 as (e1 & He1 & <-). apply (sh_table S) in H2 as (e2 & He2 & <-). f_equal. f_equal.
      apply (@QuotaSim.id_inj mx idle [] c L i1); [done|rewrite app_nil_r; done..].
    - pose proof (sh_ids S) as N. by rewrite app_nil_r in N.
    - intros i. rewrite !elem_of_list_fmap. split.
      + intros ([k j] & -> & H%ho_elem). apply (sh_table S) in H as (e & He & _). by exists (j, e).
      + intros ([j e] & -> & H). exists (e_key e, j). split; [done|]. apply ho_elem. by apply (shape_find S). }
  destruct (Permutation_map_inv _ _ P) as (M & EM & PM).
  assert (forall p, p ∈ M <-> p ∈ L) as HM by (intros p; by rewrite PM).
  destruct (@remove_each_ok m (ho_list ord (l_table c)) M c u) as (c' & u' & E & H1 & H2 & H3 & H4 & H5 & H6 & H7 & H8 & H9 & H10); try done.
  - change M.*1 with (map fst M). rewrite <- EM. rewrite P. pose proof (sh_ids S) as N. by rewrite app_nil_r in N.
  - rewrite <- PM. assert ((fun p : node => e_value p.2) <$> L = c_addr <$> l) as ->; [|apply R].
    pose proof (rep_same R) as F. clear -F. induction F as [|p x L l Hs F IH]; [done|]. rewrite !fmap_cons, IH. f_equal. apply Hs.
  - intros i e. rewrite (sh_heap S), app_nil_r. by rewrite HM.
  - rewrite <- PM. apply Forall_and. split; [exact Hp|apply S].
  - intros i. rewrite (sh_list S). by rewrite PM.
  - intros p Hin%HM. pose proof (rep_same R) as F. apply elem_of_list_lookup in Hin as [j Hj]. eapply Forall2_lookup_l in F as (x & Hx & Hs); [|exact Hj].
    destruct Hs as (_ & Ev & _ & Hv). rewrite Ev. eauto.
  - rewrite (sh_units S). by rewrite PM.
  - unfold RemoveAll. cbn [fst]. rewrite E. cbn [obind fst snd]. eexists _, _. split; [reflexivity|]. split_and!; try done.
    constructor; [|constructor|constructor|by intros ? ?%elem_of_nil].
    constructor; cbn; try done.
    + intros i e. rewrite H1, lookup_empty. split; [done|by intros ?%elem_of_nil].
    + intros k i. split; [done|]. by intros (e & ?%elem_of_nil & _).
    + constructor.
    + constructor.
    + by intros ? ?%elem_of_nil.
    + by rewrite H4, (sh_defer S).
    + by rewrite H5, (sh_max S).
    + by rewrite H6, (sh_idle S).
    + by rewrite H7, (sh_lru S).
Qed.
End step.
