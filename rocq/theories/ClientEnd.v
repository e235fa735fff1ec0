(** Invariants of the client, part 7: the destructor. *)
From Verif Require Import Base Proto Signature OpAgg Lru Timeout Agg CheckAgg CheckAggSpec QuotaAgg QuotaAggSpec ReportAgg ReportAggSpec Client ClientSpec ClientInv ClientCalls ClientStage ClientFlush ClientLocks.
From stdpp Require Import gmap list.
Local Open Scope Z_scope.
Set Implicit Arguments.

(** The instructions that replace one. *)
Ltac in_new Hj :=
  unfold api_code, callback_code, after_code, tick_code, destroy_code, completed_code in Hj;
  repeat match type of Hj with
  | context [if ?b then _ else _] => destruct b
  | context [match ?x with _ => _ end] => destruct x
  end;
  cbn [app] in Hj; rewrite ?elem_of_app, ?elem_of_cons, ?elem_of_nil in Hj; destruct_or? Hj; subst; try done.

Section ending.
Variable debug : bool.
Variable ord : hash_order.
Variable md5 : string -> string.
Variable clk : kind -> nat -> Z.
Variable cf : client_config.
Notation reach := (reach debug ord md5 clk cf).
Notation agg_step := (agg_step debug ord md5 clk cf).
Notation estep := (estep debug ord md5 clk cf).
Implicit Types (w : world) (t : nat) (i : instr) (ths : list (list instr)) (tr : list event).

Definition rets i : list nat := match i with IReturn c => [c] | _ => [] end.
Definition shuts i : list kind := match i with IDisconnect k => [k] | _ => [] end.
(** The code of the destructor. *)
Definition drains i : bool := match i with IAgg (OnReport RFlushAll) _ | IBody (OnReport RFlushAll) _ => true | _ => false end.
Definition ender i : bool := match i with IDisconnect _ | IFree => true | _ => drains i end.
Definition ends_in_order i (l : list instr) : Prop :=
  match i with
  | IFree => forall k, IDisconnect k ∉ l
  | IDisconnect _ => forallb (fun j => negb (drains j)) l = true
  | _ => drains i = true -> IDisconnect KReport ∈ l
  end.
Definition while_connected w (_ : nat) i : Prop :=
  match i with ICount (FromFlush k _) _ _ | ITransport (FromFlush k _) _ _ => w_connected w k = true | _ => True end.
Record ending ths w : Prop := {
  en_rets : all rets ths ≡ₚ w_open w;
  en_open : NoDup (w_open w) /\ Forall (fun c => (c < w_calls w)%nat) (w_open w);
  en_closing : w_closing w = true -> w_open w = [];
  en_alive : w_alive w = false -> w_closing w = true;
  en_ender : each (fun _ i => ender i = true -> w_closing w = true) ths;
  en_order : belows ends_in_order ths;
  en_once : NoDup (all shuts ths);
  en_free : forall t st k, ths !! t = Some st -> IFree ∈ st -> IDisconnect k ∈ st \/ w_connected w k = false;
  en_dead : w_alive w = false -> forall k, w_connected w k = false;
  en_conn : each (while_connected w) ths;
  en_disc : forall k, w_connected w k = false -> w_closing w = true }.

Lemma rets_flush k n qs : (IFlush k n <$> qs) ≫= rets = [].
Proof. induction qs as [|q qs IH]; [done|]. rewrite fmap_cons, bind_cons. done. Qed.
Lemma shuts_flush k n qs : (IFlush k n <$> qs) ≫= shuts = [].
Proof. induction qs as [|q qs IH]; [done|]. rewrite fmap_cons, bind_cons. done. Qed.

(** What a step adds. *)
Lemma new_rets t w i new w' : estep t w i new w' -> (forall c, i <> IReturn c) ->
  (exists a, i = IUser /\ w' = log (EStart t (w_calls w) a) (set_open (w_calls w :: w_open w) (set_calls (S (w_calls w)) w)) /\ new ≫= rets = [w_calls w] /\ w_closing w = false) \/
  (new ≫= rets = [] /\ w_open w' = w_open w /\ w_calls w' = w_calls w).
Proof.
  intros E Nr. destruct E; wsimpl; try (right; split; [reflexivity|split; reflexivity]).
  - left. exists a. split; [done|]. split; [done|]. split; [|done]. unfold api_code. by destruct (ap_blocking a).
  - right. split; [|by split]. rewrite !bind_app, rets_flush. by destruct u as [[]|].
  - right. split; [|by split]. unfold callback_code. by destruct q.
  - right. split; [|by split]. unfold after_code. by destruct (status_eqb _ _), (ap_request a).
  - right. split; [|by split]. destruct f; try done; cbn; by destruct (status_eqb _ _).
  - by destruct (Nr c).
Qed.
Lemma new_enders t w i new w' : estep t w i new w' ->
  (i = IUser /\ new = destroy_code ++ [IUser] /\ w' = log (EDestroy t) (set_closing true w) /\ w_closing w = false /\ w_open w = [] /\ w_alive w = true) \/
  (w_closing w' = w_closing w /\ (forall j, j ∈ new -> ender j = true -> drains j = true /\ drains i = true)).
Proof.
  intros E. destruct E; wsimpl.
  all: try (right; split; [reflexivity|]; intros j Hj; by in_new Hj).
  - by left.

  - right; split; [done|]. intros j ->%elem_of_list_singleton H1. by destruct (ap_request a).
  - right; split; [reflexivity|]. intros j Hj. rewrite !elem_of_app, elem_of_list_singleton, elem_of_list_fmap in Hj.
    destruct Hj as [->|[(q & -> & _)|[Hj|Hj]]]; [done|done|in_new Hj|in_new Hj].
Qed.
Lemma new_shuts t w i new w' : estep t w i new w' -> i <> IUser -> new ≫= shuts = [].
Proof.
  intros E Ni. destruct (new_enders E) as [(-> & _)|[_ H]]; [done|]. clear E Ni. induction new as [|j new IH]; [done|]. rewrite bind_cons, IH.
  - rewrite app_nil_r. assert (j ∈ j :: new) as Hj by apply elem_of_list_here. destruct j; try done. by destruct (H _ Hj).
  - intros j' Hj. by apply H, elem_of_list_further.
Qed.
Lemma connected_step t w i new w' k : estep t w i new w' -> w_connected w' k = false -> w_connected w k = false \/ i = IDisconnect k.
Proof.
  intros E H. destruct E; try (by left). cbn in H. unfold fset in H. destruct (decide (k = k0)) as [->|]; [by right|by left].
Qed.
Lemma connected_mono t w i new w' k : estep t w i new w' -> w_connected w k = false -> w_connected w' k = false.
Proof. intros E H. destruct E; try done. cbn. unfold fset. by destruct (decide _). Qed.
Lemma alive_step t w i new w' : estep t w i new w' -> w_alive w' = false -> w_alive w = false \/ i = IFree.
Proof. intros E H. destruct E; auto. Qed.

(** A call whose code is on a stack has not returned. *)
Lemma code_open ths w t st i c : reach (ths, w) -> all rets ths ≡ₚ w_open w -> ths !! t = Some st -> i ∈ st -> IReturn c ∈ needs i -> c ∈ w_open w.
Proof.
  intros R P Ht Hi Hn. rewrite <- P. apply elem_of_list_split in Hi as (l1 & l2 & ->). pose proof (reach_scoped R _ Ht) as B. apply below_elem in B.
  apply all_elem. exists t, (l1 ++ i :: l2), (IReturn c). split; [done|]. split; [|set_solver]. apply elem_of_app. right. apply elem_of_list_further. by apply B.
Qed.

Lemma filter_other (c : nat) (l : list nat) : c ∉ l -> filter (fun c' => c' <> c) l = l.
Proof. induction l as [|x l IH]; [done|]. intros [H1 H2]%not_elem_of_cons. rewrite filter_cons_True by done. by rewrite IH. Qed.
Lemma reach_ending ths w : reach (ths, w) -> ending ths w.
Proof.
  revert ths w. refine (reach_ind' (fun ths w => ending ths w) _ _ _).
  - intros a _. constructor; cbn; try done; try (by intros t st i E); try (by intros t st E); try (by intros t st k E).
    + split; [apply NoDup_nil_2|constructor].
    + apply NoDup_nil_2.
  - intros ths w R IH _. destruct IH. constructor; try done.
    + by rewrite all_spawn.
    + by apply each_spawn.
    + by apply belows_spawn.
    + by rewrite all_spawn.
    + intros t st k [E|[_ E]]%lookup_app_Some Hf; [by eapply en_free0|]. apply list_lookup_singleton_Some in E as [_ <-]. set_solver.
    + by apply each_spawn.
  - intros ths w t i rest new w' R IH _ Ht E. destruct IH as [I1 I2 I3 I4 I5 I6 I7 I8 I9 I10 I11].
    assert (forall t' st j, <[t:=rest]> ths !! t' = Some st -> j ∈ st -> exists st', ths !! t' = Some st' /\ j ∈ st') as Hsub.
    { intros t' st j [[-> ->]|[_ E']]%ins_lookup Hj; [|eauto]. exists (i :: rest). split; [done|]. by apply elem_of_list_further. }
    assert (forall j, j ∈ rest -> ender j = true -> w_closing w = true) as Hre. { intros j Hj. eapply I5; [done|]. by apply elem_of_list_further. }
    assert (all rets (<[t := new ++ rest]> ths) ≡ₚ w_open w' /\ NoDup (w_open w') /\ Forall (fun c => (c < w_calls w')%nat) (w_open w') /\
      (w_closing w = true -> w_open w' = [])) as (J1 & J2 & J2' & J3).
    { assert ((exists c, i = IReturn c) \/ forall c, i <> IReturn c) as [(c & ->)|Nr] by (clear; destruct i; try (right; by intros ?); left; by eexists).
      - pose proof (all_step rets _ _ new Ht) as P. inversion E; subst; [done|]. wsimpl. cbn in P. rewrite app_nil_r in P.
        assert (w_open w ≡ₚ c :: all rets (<[t := rest]> ths)) as Po by (rewrite <- I1, <- P; solve_Permutation).
        destruct I2 as [I2 I2']. pose proof I2 as N. rewrite Po in N. apply NoDup_cons in N as [N1 N2]. cbn [app]. split; [|split; [|split]].
        + rewrite Po. rewrite filter_cons_False by (by intros []). by rewrite filter_other.
        + by apply NoDup_filter.
        + apply Forall_forall. intros x [_ Hx]%elem_of_list_filter. by eapply Forall_forall in I2'.
        + intros Hc. by rewrite (I3 Hc).
      - pose proof (all_step rets _ _ new Ht) as P. assert (rets i = []) as Hi by (clear - Nr; destruct i; try done; by destruct (Nr c)). rewrite Hi, app_nil_r in P. rewrite P, I1.
        destruct I2 as [I2 I2']. destruct (new_rets E Nr) as [(a & -> & -> & -> & Hc)|(-> & -> & ->)]; wsimpl.
        + split; [solve_Permutation|]. split; [|split; [|by rewrite Hc]].
          * apply NoDup_cons. split; [|done]. intros Hin. eapply Forall_forall in I2'; [|done]. lia.
          * constructor; [lia|]. eapply Forall_impl; [done|]. cbn. lia.
        + rewrite app_nil_r. by split_and!. }
    destruct (new_enders E) as [(-> & -> & -> & Hc & Ho & Ha)|[Hc Hn]].
    + (* destruction *)
      assert (forall j, j ∈ rest -> ender j = false) as Hr. { intros j Hj. destruct (ender j) eqn:Ej; [|done]. specialize (Hre _ Hj Ej). congruence. }
      assert (all shuts ths = []) as Hs. { destruct (all shuts ths) as [|k l] eqn:El; [done|]. exfalso. assert (k ∈ all shuts ths) as Hk by (rewrite El; apply elem_of_list_here).
        apply all_elem in Hk as (t' & st & j & H1 & H2 & H3). destruct j; try by apply elem_of_nil in H3. specialize (I5 _ _ _ H1 H2 eq_refl). congruence. }
      constructor; wsimpl; try done.
      * eapply belows_step; [done|done|]. intros _ B.
        assert (forallb (fun j => negb (drains j)) rest = true) as Hd.
        { apply forallb_forall. intros j Hj%elem_of_list_In. apply Hr in Hj. unfold ender in Hj. by destruct j; try rewrite Hj. }
        assert (forall k, IDisconnect k ∉ rest) as Hk. { intros k Hj. by apply Hr in Hj. }
        cbn [destroy_code app below ends_in_order drains forallb negb andb]. split_and!; try done; try set_solver.
      * pose proof (all_step shuts _ _ (destroy_code ++ [IUser]) Ht) as P. rewrite Hs in P. cbn in P. rewrite app_nil_r in P. rewrite P.
        repeat constructor; set_solver.
      * intros t' st k [[-> ->]|[_ E']]%ins_lookup Hf; [|by eapply I8]. left. destruct k; set_solver.
      * eapply each_step; [exact I10|done|done|]. intros j Hj. cbn in Hj. rewrite !elem_of_cons, elem_of_nil in Hj. by destruct_or? Hj; subst.
    + rewrite <- Hc in *. constructor.
      * done.
      * done.
      * done.
      * intros Ha. destruct (alive_step E Ha) as [Ha'| ->]; [auto|]. by eapply I5; [exact Ht|apply elem_of_list_here|].
      * eapply each_step; [exact I5|done|done|]. intros j Hj He. destruct (Hn _ Hj He) as [_ Hd]. eapply I5; [exact Ht|apply elem_of_list_here|]. unfold ender. by destruct i.
      * eapply belows_step; [done|done|]. intros H1 B. clear - H1 B E Hn Ht.
        assert (forall j, j ∈ new -> ender j = true -> drains i = true /\ new = [j]) as Hn'.
        { intros j Hj He. destruct (Hn _ Hj He) as [H2 H3]. split; [done|]. destruct i as [| | |call u|call u| | | | | | | | | | | | | |]; try done; inversion E; subst; try (by apply elem_of_nil in Hj).
          - by apply elem_of_list_singleton in Hj as ->.
          - exfalso. rewrite !elem_of_app, elem_of_list_singleton, elem_of_list_fmap in Hj. destruct Hj as [->|[(q & -> & _)|[Hj|Hj]]]; [done|done|in_new Hj|in_new Hj]. }
        assert (forall j, j ∈ new -> ender j = true -> ends_in_order j rest) as Hj.
        { intros j Hj He. destruct (Hn' _ Hj He) as [Hd _]. destruct (Hn _ Hj He) as [Hd' _]. assert (IDisconnect KReport ∈ rest) as Hk. { destruct i; try (by cbn in Hd); by apply H1. } destruct j; try (by cbn in Hd'); by intros _. }
        clear Hn E Ht. assert (forall l, (forall j, j ∈ l -> ender j = true -> ends_in_order j rest /\ l = [j]) -> below ends_in_order (l ++ rest)) as G.
        { clear Hj Hn' new. intros l. destruct (decide (Forall (fun j => ender j = false) l)) as [Hf|Hf].
          - intros _. induction Hf as [|j l Hj Hf IH]; [done|]. split; [|done]. destruct j; try done; cbn in Hj; intros Hd; cbn in Hd; congruence.
          - intros Hl. apply not_Forall_Exists in Hf; [|apply _]. apply Exists_exists in Hf as (j & Hj & He). apply not_false_is_true in He. destruct (Hl _ Hj He) as [H2 ->]. by split. }
        apply G. intros j Hjn He. split; [by apply Hj|]. by apply Hn'.
      * pose proof (all_step shuts _ _ new Ht) as P. assert (new ≫= shuts = []) as Hs.
        { destruct (decide (new ≫= shuts = [])) as [|Ne]; [done|]. exfalso. destruct (new ≫= shuts) as [|k l] eqn:El; [done|].
          assert (k ∈ new ≫= shuts) as Hk by (rewrite El; apply elem_of_list_here). apply elem_of_list_bind in Hk as (j & H1 & H2). destruct j; try by apply elem_of_nil in H1.
          by destruct (Hn _ H2 eq_refl). }
        rewrite Hs, app_nil_r in P. rewrite <- P in I7. apply NoDup_app in I7. apply I7.
      * intros t' st k E' Hf. assert (w_connected w k = false -> w_connected w' k = false) as Hm by (by eapply connected_mono).
        apply ins_lookup in E' as [[-> ->]|[_ E']]; [|by destruct (I8 _ _ k E' Hf); auto].
        assert (IFree ∉ new) as Hnf. { intros H. by destruct (Hn _ H eq_refl). }
        assert (IFree ∈ i :: rest) as Hf' by set_solver.
        destruct (I8 _ _ k Ht Hf') as [[<-|Hd]%elem_of_cons|Hd]; [|set_solver|auto].
        right. inversion E; subst; [done|]. cbn. unfold fset. by rewrite decide_True.
      * intros Ha k. eapply connected_mono; [done|]. destruct (alive_step E Ha) as [Ha'| ->]; [auto|].
        destruct (I8 _ _ k Ht (elem_of_list_here _ _)) as [Hd|Hd]; [|done]. exfalso. destruct (I6 _ _ Ht) as [H1 _]. apply (H1 k). by apply elem_of_cons in Hd as [|].
      * (* the code of a flush callback *)
        assert (forall j t' st, ths !! t' = Some st -> j ∈ st -> while_connected w t' j -> while_connected w' t' j) as Hk.
        { intros j t' st E' Hj H. assert (forall k, w_connected w k = true -> (IUnlockCallback k ∈ needs j) -> w_connected w' k = true) as G.
          { intros k Hk Hnd. destruct (w_connected w' k) eqn:Ek; [done|]. exfalso. destruct (connected_step k E Ek) as [|Hi]; [congruence|]. subst i.
            inversion E; subst; [done|]. pose proof (reach_scoped R _ E') as B. apply elem_of_list_split in Hj as (l1 & l2 & ->). apply below_elem in B.
            apply B in Hnd. assert (w_callback w k = Some t') as Ho; [|congruence]. eapply callback_owner; [exact R|exact E'|set_solver]. }
          destruct j as [|[|k n] c z| | | | | | | | | |[|k n] q f| | | | | | |]; try done; cbn in H |- *; apply G; try done; cbn; set_solver. }
        assert (forall j, j ∈ i :: rest -> while_connected w t j) as Hold. { intros j Hj. by eapply I10. }
        eapply each_step; [exact I10|done| |].
        -- intros t' st j E' Hj H. destruct (Hsub _ _ _ E' Hj) as (st' & E2 & Hj'). by eapply Hk.
        -- intros j Hj. destruct E; try (by apply elem_of_nil in Hj); try (by apply elem_of_list_singleton in Hj as ->); try (by in_new Hj).
           ++ rewrite !elem_of_app, elem_of_list_singleton, elem_of_list_fmap in Hj. destruct Hj as [->|[(q & -> & _)|[Hj|Hj]]]; [done|done|in_new Hj|in_new Hj].
      * intros k Hk. destruct (connected_step k E Hk) as [Hk'| ->]; [by apply (I11 k)|]. eapply I5; [exact Ht|apply elem_of_list_here|done].
Qed.

(** ** Uses of the deleted client *)
Lemma some_snoc (P : nat -> event) tr ev : (forall t, P t <> ev) -> (exists t, P t ∈ tr ++ [ev]) <-> exists t, P t ∈ tr.
Proof. intros H. split; intros (t & Ht); exists t; [|apply elem_of_app; by left]. apply elem_of_app in Ht as [|Ht%elem_of_list_singleton]; [done|]. by destruct (H t). Qed.
Lemma some_last (P : nat -> event) tr t : exists t', P t' ∈ tr ++ [P t].
Proof. exists t. apply elem_of_app. right. by apply elem_of_list_singleton. Qed.
Lemma freed_event ths w : reach (ths, w) -> w_alive w = false <-> exists t, EFreed t ∈ w_trace w.
Proof.
  revert ths w. refine (reach_ind' (fun ths w => w_alive w = false <-> exists t, EFreed t ∈ w_trace w) _ _ _); [|done|].
  - intros a _. cbn. split; [done|]. intros (t & H). by apply elem_of_nil in H.
  - intros ths w t i rest new w' _ IH _ _ E. destruct E; wsimpl; try exact IH.
    all: try (rewrite !(some_snoc EFreed) by (by intros ?); exact IH).
    split; [|done]. intros _. apply (some_last EFreed).
Qed.
Lemma dead_use ths w t i rest : reach (ths, w) -> ths !! t = Some (i :: rest) -> w_alive w = false -> touches w i = true ->
  exists n q s r, i = ICompleted n (FlushedQuota q) s r /\ (exists t' k m, ETransport t' n (FromFlush k m) (RqQuota q) ∈ w_trace w) /\
    (exists t' b, ECompleted t' n s r b ∈ w_trace w) /\ exists t', EFreed t' ∈ w_trace w.
Proof.
  intros R Ht Ha Hu. pose proof (reach_ending R) as I. pose proof (en_alive I Ha) as Hc. pose proof (en_closing I Hc) as Ho.
  assert (i ∈ i :: rest) as Hi by apply elem_of_list_here.
  assert (forall c, IReturn c ∈ needs i -> False) as Hno. { intros c Hn. assert (c ∈ w_open w) as H by (eapply code_open; [exact R|apply I|exact Ht|exact Hi|exact Hn]). rewrite Ho in H. by apply elem_of_nil in H. }
  pose proof (en_conn I _ Ht Hi) as Hw. pose proof (en_dead I Ha) as Hd.
  destruct i as [|[c|k m] c' z|c a| | | |k m q|k m q| | | | |n f s r| | | | | |]; try done; cbn in Hu.
  - by destruct (Hno c); set_solver.
  - cbn in Hw. rewrite Hd in Hw. done.
  - by destruct (Hno c); set_solver.
  - by rewrite Hd in Hu.
  - destruct f as [| | | |q|]; try done. exists n, q, s, r. split; [done|]. destruct (st_each (proj1 (reach_staged R)) _ Ht Hi) as [HO HC].
    split; [|split; [done|by apply (freed_event R)]]. destruct HO as [(t' & c & a & m & r' & Hf & _)|(t' & k & m & q' & Hf & HT)].
    + by destruct (ap_request a).
    + destruct q'; cbn in Hf; try done. injection Hf as <-. by exists t', k, m.
Qed.
Lemma dead_crash ths w i : reach (ths, w) -> w_crash w = Some (UseAfterDestroy i) ->
  exists n q s r, i = ICompleted n (FlushedQuota q) s r /\ (exists t' k m, ETransport t' n (FromFlush k m) (RqQuota q) ∈ w_trace w) /\
    (exists t' b, ECompleted t' n s r b ∈ w_trace w) /\ exists t', EFreed t' ∈ w_trace w.
Proof.
  revert ths w. refine (reach_ind' (fun ths w => w_crash w = Some (UseAfterDestroy i) ->
    exists n q s r, i = ICompleted n (FlushedQuota q) s r /\ (exists t' k m, ETransport t' n (FromFlush k m) (RqQuota q) ∈ w_trace w) /\
    (exists t' b, ECompleted t' n s r b ∈ w_trace w) /\ exists t', EFreed t' ∈ w_trace w) _ _ _).
  - intros a _. done.
  - done.
  - intros ths w t j rest new w' R _ Hc Ht E H. destruct E; cbn in H; try congruence.
    injection H as <-. wsimpl. eapply dead_use; [exact R|exact Ht|done|done].
Qed.

(** ** The order of the destructor's effects *)
Definition each_event (P : list event -> event -> Prop) tr : Prop := forall l1 ev l2, tr = l1 ++ ev :: l2 -> P l1 ev.
Lemma each_event_snoc P tr ev : each_event P tr -> P tr ev -> each_event P (tr ++ [ev]).
Proof.
  intros H Hp l1 ev' l2 E. destruct l2 as [|x l2 _] using rev_ind.
  - apply app_inj_tail in E as [-> ->]. done.
  - rewrite app_comm_cons, app_assoc in E. apply app_inj_tail in E as [-> _]. by eapply H.
Qed.
Definition in_order tr ev : Prop :=
  match ev with
  | EDropped _ k _ _ => exists t', EDisconnect t' k ∈ tr
  | ECallback _ k _ _ | ETransport _ _ (FromFlush k _) _ => forall t', EDisconnect t' k ∉ tr
  | EDisconnect _ k => (exists t', EDestroy t' ∈ tr) /\ forall t', EDisconnect t' k ∉ tr
  | EFreed _ => forall k, exists t', EDisconnect t' k ∈ tr
  | EStart _ _ _ => forall t', EDestroy t' ∉ tr
  | EDestroy _ => forall t', EDestroy t' ∉ tr
  | _ => True
  end.
Lemma disconnect_event ths w : reach (ths, w) -> (w_closing w = true <-> exists t, EDestroy t ∈ w_trace w) /\ forall k, w_connected w k = false <-> exists t, EDisconnect t k ∈ w_trace w.
Proof.
  revert ths w. refine (reach_ind' (fun ths w => (w_closing w = true <-> exists t, EDestroy t ∈ w_trace w) /\ forall k, w_connected w k = false <-> exists t, EDisconnect t k ∈ w_trace w) _ _ _); [|done|].
  - intros a _. cbn. split; [split; [done|]; intros (t & H); by apply elem_of_nil in H|]. intros k. split; [done|]. intros (t & H). by apply elem_of_nil in H.
  - intros ths w t i rest new w' _ [IH1 IH2] _ _ E. destruct E; wsimpl; try (by split).
    all: try (split; [rewrite !(some_snoc EDestroy) by (by intros ?); exact IH1|intros k1; rewrite !(some_snoc (fun t => EDisconnect t k1)) by (by intros ?); apply IH2]).
    + split; [|intros k1; rewrite !(some_snoc (fun t => EDisconnect t k1)) by (by intros ?); apply IH2]. split; [|done]. intros _. apply (some_last EDestroy).
    + split; [rewrite (some_snoc EDestroy) by (by intros ?); exact IH1|]. intros k1. unfold fset. destruct (decide (k1 = k)) as [->|Ne].
      * split; [|done]. intros _. apply (some_last (fun t => EDisconnect t k)).
      * rewrite (some_snoc (fun t => EDisconnect t k1)); [apply IH2|]. intros t' [= ? ?]. congruence.
Qed.
(** Each callback is disconnected once. *)
Lemma reach_once ths w : reach (ths, w) -> each (fun _ i => match i with IDisconnect k => w_connected w k = true | _ => True end) ths.
Proof.
  revert ths w. refine (reach_ind' (fun ths w => each (fun _ i => match i with IDisconnect k => w_connected w k = true | _ => True end) ths) _ _ _).
  - by intros a _ t st i E.
  - intros ths w _ IH _. by apply each_spawn.
  - intros ths w t i rest new w' R IH _ Ht E. pose proof (reach_ending R) as I. eapply each_step; [exact IH|done| |].
    + intros t' st j E' Hj H. destruct j; try done. destruct (w_connected w' k) eqn:Ek; [done|]. exfalso.
      destruct (connected_step k E Ek) as [|Hi]; [congruence|]. subst i. pose proof (en_once I) as N. pose proof (all_step shuts _ _ [] Ht) as P. cbn in P. rewrite app_nil_r in P.
      rewrite <- P in N. apply NoDup_app in N as (_ & N & _). apply (N k); [|set_solver]. apply all_elem. exists t', st, (IDisconnect k). split; [done|]. split; [done|set_solver].
    + intros j Hj. destruct (new_enders E) as [(-> & -> & -> & Hc & _)|[_ H]].
      * destruct j; try done. wsimpl. destruct (w_connected w k) eqn:Ek; [done|]. pose proof (en_disc I k Ek). congruence.
      * destruct j; try done. by destruct (H _ Hj).
Qed.
Lemma reach_in_order ths w : reach (ths, w) -> each_event in_order (w_trace w).
Proof.
  revert ths w. refine (reach_ind' (fun ths w => each_event in_order (w_trace w)) _ _ _); [|done|].
  - intros a _ l1 ev l2 E. by destruct l1.
  - intros ths w t i rest new w' R IH _ Ht E. pose proof (reach_ending R) as I. destruct (disconnect_event R) as [D1 D2].
    assert (i ∈ i :: rest) as Hi by apply elem_of_list_here.
    assert (forall k, w_connected w k = true -> forall t', EDisconnect t' k ∉ w_trace w) as Hk. { intros k Hk t' H. enough (w_connected w k = false) by congruence. apply D2. eauto. }
    assert (w_closing w = false -> forall t', EDestroy t' ∉ w_trace w) as Hd. { intros Hc t' H. enough (w_closing w = true) by congruence. apply D1. eauto. }
    destruct E; wsimpl; try done; try (apply each_event_snoc; [done|]); try done; cbn [in_order]; auto.
    + by apply D2.
    + destruct o as [|k m]; [done|]. apply Hk. apply (en_conn I _ Ht Hi).
    + apply each_event_snoc; [|done]. apply each_event_snoc; [done|]. destruct o as [|k m]; [done|]. cbn [in_order]. apply Hk. apply (en_conn I _ Ht Hi).
    + split; [apply D1; by apply (en_ender I _ Ht Hi)|]. apply Hk. apply (reach_once R _ Ht Hi).
    + intros k. apply D2. destruct (en_free I _ k Ht Hi) as [[H|H]%elem_of_cons|H]; [done| |done]. exfalso. destruct (en_order I _ Ht) as [HB _]. by apply (HB k).
Qed.
End ending.
