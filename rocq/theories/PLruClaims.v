(** Histories of the pointer-level cache are histories of the cache of Lru.v, and conversely. *)
From Verif Require Import Base Proto Lru LruSim LruOps LruOps2 LruSpec LruInv LruBooks LruStep LruProofs LruClaims LruOrder LinkedList LinkedListProofs LinkLay PLru PLruSpec PLruProofs PLruRest.
From stdpp Require Import gmap list.
Local Open Scope Z_scope.
Set Implicit Arguments.
Unset Strict Implicit.
Local Arguments sum_Z : simpl never.

Section claims.
Context {V : Type} `{!EqDecision V}.
Implicit Types (p : plru V) (c : lru V) (e : elem V) (o : op V).
Variable clk : nat -> Z.
Variable ord : hash_order.

Lemma all_placed c s : Rep c s -> forall n, is_Some (l_heap c !! n) -> (exists k, l_table c !! k = Some n) \/ deferred (l_defer c) n.
Proof.
  intros (L & P & D & A & T) n [e E]. apply elem_of_map_to_list in E. rewrite (ab_heap A) in E. rewrite app_assoc in E. apply elem_of_app in E as [E|E].
  - left. exists (e_key e). apply elem_of_map_to_list. rewrite T. unfold tab. apply elem_of_list_fmap. by exists (n, e).
  - right. pose proof (ab_defer A (e_key e)) as X. assert (Y : n ∈ of_key (e_key e) D) by (apply of_key_elem; eauto). rewrite <- X in Y.
    destruct (l_defer c !! e_key e) as [l|] eqn:El; cbn in Y; [|by apply elem_of_nil in Y]. by exists (e_key e), l.
Qed.
Lemma rec_silent : silent (recorder : string -> V -> _ -> _) p_note.
Proof. intros k v c u c' u' [= <- <-]. done. Qed.
Lemma rec_faithful : faithful (recorder : string -> V -> _ -> _) p_note.
Proof. apply silent_faithful, rec_silent. Qed.
Lemma ok_ticks p c : Ok_ p c -> p_tick p = l_tick c /\ p_next p = l_next_id c /\ p_lru p = l_lru c.
Proof. intros (l & D & -> & _). done. Qed.

Lemma step_ok o p c s c' r x : Rep c s -> Ok_ p c -> step clk ord o c = Ok (c', r, x) -> exists p', pcstep clk ord o p = Ok (p', r, x) /\ Ok_ p' c'.
Proof.
  intros Rp R H. destruct (ok_ticks R) as (_ & En & El). unfold step in H. unfold pcstep. rewrite En, El.
  assert (G : forall (X : outcome (world (V:=V) (U:=list (string * V)))) (Y : outcome (pworld (V:=V) (U:=list (string * V)))),
    (forall c' u', X = Ok (c', u') -> exists p', Y = Ok (p', u') /\ Ok_ p' c') ->
    (let! w := X in Ok (w.1, None, w.2)) = Ok (c', r, x) -> exists p', (let! w := Y in Ok (w.1, None, w.2)) = Ok (p', r, x) /\ Ok_ p' c').
  { intros X Y HX H1. destruct X as [[c1 u1]| | |]; cbn [obind fst snd] in H1; try discriminate. injection H1 as -> <- ->.
    destruct (HX _ _ eq_refl) as (p' & -> & R'). by exists p'. }
  destruct o as [k v y|k v y|k|k v|k| | | | |y|k v y|t].
  - eapply G; [|exact H]. intros c1 u1. by apply (insert_ok rec_faithful).
  - eapply G; [|exact H]. intros c1 u1. by apply (insert_pinned_ok rec_faithful).
  - unfold Lru.Lookup in H. match type of H with obind ?X _ = _ => destruct X as [[[c1 u1] r1]| | |] eqn:E1 end; cbn [obind fst snd] in H; try discriminate.
    injection H as -> -> ->. apply (lookup_ok rec_faithful R) in E1 as (p1 & -> & R1). by exists p1.
  - eapply G; [|exact H]. intros c1 u1. by apply (release_ok rec_faithful).
  - eapply G; [|exact H]. intros c1 u1. by apply (remove_ok rec_faithful).
  - eapply G; [|exact H]. intros c1 u1. by apply (remove_all_ok rec_silent).
  - eapply G; [|exact H]. intros c1 u1. by apply (remove_unpinned_ok rec_faithful).
  - eapply G; [|exact H]. intros c1 u1. apply (clear_ok rec_silent); [done|]. exact (all_placed Rp).
  - eapply G; [|exact H]. intros c1 u1. by apply (expired_ok rec_faithful).
  - eapply G; [|exact H]. intros c1 u1. by apply (set_max_ok rec_faithful).
  - eapply G; [|exact H]. intros c1 u1. by apply (update_size_ok rec_faithful).
  - eapply G; [|exact H]. intros c1 u1. by apply (set_timeout_ok rec_faithful).
Qed.
Lemma new_ok n : exists p, PNewCache n = Ok p /\ Ok_ p (NewCache n : lru V).
Proof.
  set (m := <[0%nat := Node (Some 0%nat) (Some 0%nat)]> (∅ : pheap)).
  assert (Em : PSelf 0 (PNew 0 ∅) = Ok m).
  { unfold PSelf, PNew, wr_prev, wr_next, rd. rewrite lookup_insert. cbn [obind]. rewrite lookup_insert. cbn [obind n_prev]. by rewrite !insert_insert. }
  unfold PNewCache. rewrite Em. cbn [obind]. eexists. split; [done|]. exists [], ∅. split; [done|]. split; cbn [p_links p_heap p_defer p_next p_table].
  - apply lay_empty; [by apply lookup_insert|]. intros x. unfold m. by rewrite lookup_insert_ne.
  - intros x. unfold m. rewrite lookup_insert_ne by done. rewrite !lookup_empty. split; by intros [? ?].
  - intros k. by rewrite !lookup_empty.
  - intros k. by rewrite lookup_empty.
  - intros k t x X. by rewrite lookup_empty in X.
  - intros k x X. by rewrite lookup_empty in X.
  - intros x [e X]. by rewrite lookup_empty in X.
Qed.

Hypothesis clock : proper_clock clk.
Lemma preach_of cf c h : reach clk ord cf c h -> exists p, preach clk ord cf p h /\ Ok_ p c.
Proof.
  induction 1 as [c0 x Ht H|c h o c' r x Hr (p & Hp & R) Hl Hs].
  - destruct (new_ok (cf_max cf)) as (p0 & E0 & R0). destruct (set_timeout_ok rec_faithful R0 H) as (p1 & E1 & R1).
    exists p1. split; [|done]. by eapply preach_new.
  - destruct (reach_good clock Hr) as (s & Rp & _). destruct (step_ok Rp R Hs) as (p' & E & R').
    exists p'. split; [|done]. destruct (ok_ticks R) as [<- _]. destruct (ok_ticks R') as [<- _]. by eapply preach_step.
Qed.
Lemma reach_of cf p h : preach clk ord cf p h -> exists c, reach clk ord cf c h /\ Ok_ p c.
Proof.
  induction 1 as [p0 p1 x Ht H0 H1|p h o p' r x Hp (c & Hr & R) Hl Hs].
  - destruct (new_ok (cf_max cf)) as (p0' & E0 & R0). rewrite H0 in E0. injection E0 as <-.
    assert (exists c0 x0, SetTimeout recorder clk 2 (cf_timeout cf) (cf_lru cf) (NewCache (cf_max cf), []) = Ok (c0, x0)) as (c0 & x0 & Hc).
    { unfold SetTimeout. destruct (cf_timeout cf) as [n|]; [|cbn; eauto]. cbn. unfold DiscardIdle. destruct (n <? 0); cbn; eauto. }
    pose proof Hc as Hc2. destruct (set_timeout_ok rec_faithful R0 Hc) as (p1' & E1 & R1). rewrite H1 in E1. injection E1 as <- <-.
    exists c0. split; [|done]. by eapply reach_new.
  - destruct (reach_good clock Hr) as (s & Rp & _). destruct (progress clock o Hr Hl) as (c' & r' & x' & Hc).
    destruct (step_ok Rp R Hc) as (p2 & E2 & R2). rewrite Hs in E2. injection E2 as <- <- <-.
    exists c'. split; [|done]. destruct (ok_ticks R) as [-> _]. destruct (ok_ticks R2) as [-> _]. by eapply reach_step.
Qed.

(** ** The claims *)
Lemma p_progress cf p h o : preach clk ord cf p h -> legal (books_of clk cf h) o -> exists p' r x, pcstep clk ord o p = Ok (p', r, x).
Proof.
  intros Hp Hl. destruct (reach_of Hp) as (c & Hr & R). destruct (reach_good clock Hr) as (s & Rp & _). destruct (progress clock o Hr Hl) as (c' & r & x & Hc).
  destruct (step_ok Rp R Hc) as (p' & E & _). by exists p', r, x.
Qed.
Lemma same_histories cf h : (exists p, preach clk ord cf p h) <-> exists c, reach clk ord cf c h.
Proof.
  split.
  - intros [p Hp]. destruct (reach_of Hp) as (c & Hr & _). by exists c.
  - intros [c Hr]. destruct (preach_of Hr) as (p & Hp & _). by exists p.
Qed.
Lemma same_step cf p c h o r x : preach clk ord cf p h -> reach clk ord cf c h -> Ok_ p c -> legal (books_of clk cf h) o ->
  (exists p', pcstep clk ord o p = Ok (p', r, x)) <-> exists c', step clk ord o c = Ok (c', r, x).
Proof.
  intros Hp Hr R Hl. destruct (reach_good clock Hr) as (s & Rp & _). split.
  - intros [p' E]. destruct (progress clock o Hr Hl) as (c' & r' & x' & Hc). destruct (step_ok Rp R Hc) as (p2 & E2 & _). rewrite E in E2. injection E2 as <- <- <-. by exists c'.
  - intros [c' Hc]. destruct (step_ok Rp R Hc) as (p' & E & _). by exists p'.
Qed.
Lemma p_counters cf p h : preach clk ord cf p h -> let b := books_of clk cf h in
  p_units p = size_of_all (b_alive b) /\ Z.of_nat (size (p_table p)) = Z.of_nat (length (b_cached b)) /\
  p_pinned p = size_of_all (filter (fun y => y.1 ∈ b_cached b /\ y.1 ∈ b_held b) (b_alive b)) /\
  PCountDeferred p = Ok (Z.of_nat (length (filter (fun y => y.1 ∉ b_cached b) (b_alive b))), size_of_all (filter (fun y => y.1 ∉ b_cached b) (b_alive b))) /\
  (forall k v, PStillInUse k (Some v) p = Ok (bool_decide ((k, v) ∈ (b_alive b).*1))).
Proof.
  intros Hp b. destruct (reach_of Hp) as (c & Hr & R). pose proof (counters clock Hr) as (H1 & H2 & H3 & H4 & H5 & H6 & _).
  destruct (count_deferred_ok R) as (s & Hs & Hc). rewrite H5 in Hs. injection Hs as <-. fold b in H1, H2, H3, H4, H5, H6, Hc.
  split_and!.
  - rewrite <- H1. by destruct R as (l & D & -> & _).
  - rewrite <- H2. by destruct R as (l & D & -> & _).
  - rewrite <- H3. by destruct R as (l & D & -> & _).
  - rewrite Hc. by rewrite H4.
  - intros k v. by rewrite (still_in_use_ok k (Some v) R).
Qed.

(** ** The lists reached through the pointers *)
Lemma rng_walk m s a x b : Rng m s -> a ++ x :: b ∈ r_rings s -> forward m x = Some (b ++ a) /\ backward m x = Some (rev (b ++ a)).
Proof.
  intros [N D J L] Hr. pose proof (J _ Hr) as Jr. rewrite around_rot in Jr. cbn [app around] in Jr.
  assert (Hn : NoDup (x :: b ++ a)).
  { apply NoDup_app in N as (N & _ & _). apply elem_of_list_split in Hr as (R1 & R2 & E). rewrite E, concat_app in N. cbn in N.
    apply NoDup_app in N as (_ & _ & N). apply NoDup_app in N as (N & _ & _). change (x :: b ++ a) with ((x :: b) ++ a). by rewrite Permutation_app_comm. }
  assert (Hs : (S (length (b ++ a)) <= size m)%nat).
  { apply (ring_small m (x :: b ++ a) Hn). intros y Hy. apply D. rewrite elem_of_app. left. apply LinkedListProofs.in_concat. exists (a ++ x :: b). split; [done|].
    rewrite elem_of_cons, elem_of_app in Hy. rewrite elem_of_app, elem_of_cons. tauto. }
  apply NoDup_cons in Hn as [Hn _]. unfold forward, backward. split.
  - apply follow_next; [done|lia|done].
  - apply follow_prev; [done|lia|done].
Qed.
Lemma filter_sublist {A} `{!EqDecision A} (l1 l2 : list A) (P : A -> Prop) `{!∀ x, Decision (P x)} :
  l1 `sublist_of` l2 -> NoDup l2 -> (forall x, x ∈ l2 -> P x <-> x ∈ l1) -> filter P l2 = l1.
Proof.
  intros Hs. induction Hs as [|x l1 l2 Hs IH|x l1 l2 Hs IH]; intros N HP; [done| |].
  - apply NoDup_cons in N as [N1 N2]. rewrite filter_cons, decide_True by (apply HP; left). f_equal. apply IH; [done|].
    intros y Hy. rewrite HP by (by right). rewrite elem_of_cons. split; [|by right]. intros [->|X]; [done|done].
  - apply NoDup_cons in N as [N1 N2]. rewrite filter_cons, decide_False.
    + apply IH; [done|]. intros y Hy. apply HP. by right.
    + intros X. apply HP in X; [|left]. apply N1. apply sublist_submseteq in Hs. by apply (elem_of_submseteq _ _ _ X).
Qed.
Lemma evictable_is c s cf h : Good clk cf c h s -> evictable (cf_lru cf) (books_of clk cf h) = kv <$> q_lst s.
Proof.
  intros (Rp & I & _ & El & _). unfold evictable. apply filter_sublist.
  - pose proof (iv_order I) as X. apply (sub_fmap fst) in X. rewrite <- list_fmap_compose in X. exact X.
  - exact (iv_uniq I).
  - intros x Hx. split.
    + intros [Hc Hh]. rewrite (iv_cached I) in Hc. apply elem_of_list_fmap in Hc as (e & -> & He). apply elem_of_app in He as [He|He]; [by apply elem_of_list_fmap_1|].
      exfalso. destruct Rp as (L & P & D & A & T). destruct (cf_lru cf) eqn:Em.
      * apply Hh; [done|]. apply (held_pin I).
        -- unfold all_elems. rewrite !elem_of_app. auto.
        -- pose proof (ab_pinpin A) as F. rewrite Forall_forall in F. by apply F.
      * rewrite (ab_pinlru A) in He by done. by apply elem_of_nil in He.
    + intros Hl. apply elem_of_list_fmap in Hl as (e & -> & He). split.
      * rewrite (iv_cached I). apply elem_of_list_fmap_1. apply elem_of_app. by left.
      * intros Em Hh. destruct Rp as (L & P & D & A & T). pose proof (ab_lstpin A) as F. rewrite El in F. specialize (F Em). rewrite Forall_forall in F. specialize (F _ He).
        apply (held_pin I) in Hh; [lia|]. unfold all_elems. rewrite !elem_of_app. auto.
Qed.
Lemma eviction_list cf p h : preach clk ord cf p h -> exists rec,
  forward (p_links p) 0 = Some (S <$> rec) /\ backward (p_links p) 0 = Some (rev (S <$> rec)) /\
  entry p <$> rec = Some <$> evictable (cf_lru cf) (books_of clk cf h).
Proof.
  intros Hp. destruct (reach_of Hp) as (c & Hr & l & D & -> & W). destruct (reach_good clock Hr) as (s & G). exists l.
  destruct (wf_lay W) as [loose Rg]. destruct (@rng_walk _ _ [] 0 (S <$> l) Rg) as [F B]; [cbn; left|]. rewrite app_nil_r in F, B. split_and!; [done|done|].
  rewrite (evictable_is G). destruct G as ((L & P & Dl & A & T) & _). pose proof (ab_list A) as E1. cbn [shape l_list] in E1. rewrite E1, (ab_lst A).
  rewrite <- !list_fmap_compose. apply list_fmap_ext. intros i [n e] Hi. cbn. unfold entry.
  assert (E : l_heap (shape l D p) !! n = Some e).
  { apply elem_of_map_to_list. rewrite (ab_heap A). apply elem_of_app. left. by eapply elem_of_list_lookup_2. }
  cbn in E. by rewrite E.
Qed.
Lemma deferred_ring cf p h k : preach clk ord cf p h -> match p_defer p !! k with
  | None => left_behind k (books_of clk cf h) = []
  | Some n => exists t, forward (p_links p) (S n) = Some (S <$> t) /\ backward (p_links p) (S n) = Some (rev (S <$> t)) /\
      entry p <$> n :: t ≡ₚ Some <$> left_behind k (books_of clk cf h)
  end.
Proof.
  intros Hp. destruct (reach_of Hp) as (c & Hr & l & D & -> & W). destruct (reach_good clock Hr) as (s & (L & P & Dl & A & T) & I & _).
  set (b := books_of clk cf h) in *.
  assert (E : left_behind k b ≡ₚ kv <$> filter (fun e => e_key e = k) (q_def s)).
  { unfold left_behind. assert (X : filter (fun x => x.1 = k /\ x ∉ b_cached b) (b_alive b).*1 ≡ₚ filter (fun x => x.1 = k) ((filter (fun y => y.1 ∉ b_cached b) (b_alive b)).*1)).
    { clear. induction (b_alive b) as [|y a IH]; [done|]. rewrite fmap_cons, !filter_cons. destruct (decide (y.1 ∉ b_cached b)) as [N|N].
      - rewrite fmap_cons, filter_cons. destruct (decide (y.1.1 = k)); [rewrite decide_True by done; by rewrite IH|rewrite decide_False by tauto; done].
      - rewrite decide_False by tauto. done. }
    rewrite X, (def_alive I), <- list_fmap_compose. clear. induction (q_def s) as [|e a IH]; [done|]. rewrite fmap_cons, !filter_cons. cbn.
    destruct (decide (e_key e = k)); [|done]. rewrite fmap_cons. by rewrite IH. }
  pose proof (ab_defer A k) as Hd. cbn [shape l_defer] in Hd. unfold of_key in Hd.
  assert (E2 : filter (fun e => e_key e = k) (q_def s) = (filter (fun q => e_key q.2 = k) Dl).*2).
  { rewrite (ab_def A). clear. induction Dl as [|q a IH]; [done|]. rewrite fmap_cons, !filter_cons. destruct (decide (e_key q.2 = k)); [|done]. by rewrite fmap_cons, IH. }
  rewrite (wf_heads W). destruct (D !! k) as [[|n t]|] eqn:Ed; cbn [mbind option_bind head] in *.
  - by apply (wf_nonnil W) in Ed.
  - exists t. destruct (lay_ring (wf_lay W) Ed) as [loose Rg]. rewrite fmap_cons in Rg. destruct (@rng_walk _ _ [] (S n) (S <$> t) Rg) as [F B]; [cbn; left|].
    rewrite app_nil_r in F, B. split_and!; [done|done|]. rewrite E, E2. cbn [default id] in Hd. cbn [option_fmap] in Hd.
    transitivity (entry p <$> (filter (fun q => e_key q.2 = k) Dl).*1); [by rewrite Hd|].
    rewrite <- !list_fmap_compose. match goal with |- ?a ≡ₚ ?b => assert (Z : a = b); [|by rewrite Z] end. apply list_fmap_ext. intros i [j e] Hi. cbn. unfold entry.
    assert (X : l_heap (shape l D p) !! j = Some e).
    { apply elem_of_map_to_list. rewrite (ab_heap A). rewrite !elem_of_app. right. right. apply elem_of_list_lookup_2 in Hi. by apply elem_of_list_filter in Hi as [_ Hi]. }
    cbn in X. by rewrite X.
  - cbn in Hd. apply Permutation_nil_l in Hd. symmetry in Hd. apply fmap_nil_inv in Hd. rewrite E2, Hd in E. by apply Permutation_nil_r in E.
Qed.
Lemma memory cf p h : preach clk ord cf p h ->
  (fun q : nat * elem V => (e_key q.2, e_value q.2, e_units q.2)) <$> map_to_list (p_heap p) ≡ₚ b_alive (books_of clk cf h) /\
  (forall n, is_Some (p_links p !! S n) <-> is_Some (p_heap p !! n)) /\
  (forall x, x ∈ b_cached (books_of clk cf h) <-> exists n, p_table p !! x.1 = Some n /\ entry p n = Some x).
Proof.
  intros Hp. destruct (reach_of Hp) as (c & Hr & l & D & -> & W). destruct (reach_good clock Hr) as (s & (L & P & Dl & A & T) & I & _).
  pose proof (ab_heap A) as Hh. change (l_heap (shape l D p)) with (p_heap p) in Hh. change (l_table (shape l D p)) with (p_table p) in T. split_and!.
  - rewrite Hh, (iv_alive I). unfold all_elems. rewrite (ab_lst A), (ab_pin A), (ab_def A), <- !fmap_app, <- list_fmap_compose. done.
  - exact (wf_dom W).
  - intros x. rewrite (iv_cached I). unfold cached_elems. rewrite (ab_lst A), (ab_pin A), <- fmap_app, <- list_fmap_compose, elem_of_list_fmap. split.
    + intros ([n e] & -> & H). cbn. exists n. split.
      * apply elem_of_map_to_list. rewrite T. unfold tab. apply elem_of_list_fmap. by exists (n, e).
      * unfold entry. assert (E : p_heap p !! n = Some e) by (apply elem_of_map_to_list; rewrite Hh, app_assoc; apply elem_of_app; by left). by rewrite E.
    + intros (n & Hn & He). apply elem_of_map_to_list in Hn. rewrite T in Hn. unfold tab in Hn. apply elem_of_list_fmap in Hn as ([j e] & [= E1 ->] & H). exists (j, e). split; [|done].
      assert (E : p_heap p !! j = Some e) by (apply elem_of_map_to_list; rewrite Hh, app_assoc; apply elem_of_app; by left).
      unfold entry in He. rewrite E in He. by injection He as <-.
Qed.
End claims.
