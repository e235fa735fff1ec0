(** What the callers of the container helpers rely on. *)
From Verif Require Import Base StlUtil.
From stdpp Require Import gmap list.
Local Open Scope Z_scope.

(** The objects that pointers designate, NULL being none. *)
Definition pointees (l : list ptr) : list nat := omap id l.
(** The objects are all there, and listed once each. *)
Definition owned {E} (h : heap E) (l : list nat) : Prop := NoDup l /\ forall a, a ∈ l -> is_Some (hp_objects h !! a).
(** [h'] has the objects of [h] but for those listed. *)
Definition deleted {E} (l : list nat) (h h' : heap E) : Prop :=
  (forall a, a ∈ l -> hp_objects h' !! a = None) /\ forall a, a ∉ l -> hp_objects h' !! a = hp_objects h !! a.
(** The code deletes the objects listed if it may, and is undefined otherwise. *)
Definition deletes {E} (l : list nat) (h : heap E) (r : outcome (heap E)) : Prop :=
  (owned h l /\ exists h', r = Ok h' /\ deleted l h h') \/ (~ owned h l /\ r = UB UseAfterFree).
(** The next address is not in use. *)
Definition sound_heap {E} (h : heap E) : Prop := forall a, (hp_next h <= a)%nat -> hp_objects h !! a = None.

Section Histories.
  Context {K : Type} `{Countable K} {V : Type}.

  (** The call offers a value for the key. *)
  Definition offers (c : map_call K V) (k : K) (v : V) : Prop := c = CIfAbsent k v \/ c = COrUpdate k v \/ c = COrExisting k v.
  (** No call offered a value for the key. *)
  Definition never (cs : list (map_call K V)) (k : K) : Prop := forall c v, c ∈ cs -> ~ offers c k v.
  (** The value of the key: that of the last update, or, when there was none since, of the first offer. *)
  Definition holds (cs : list (map_call K V)) (k : K) (v : V) : Prop :=
    exists before c later, cs = before ++ c :: later /\ offers c k v /\ (c = COrUpdate k v \/ never before k) /\ forall w, COrUpdate k w ∉ later.
  (** The answer to a call after the calls [cs]. *)
  Definition right_answer (cs : list (map_call K V)) (c : map_call K V) (a : map_answer V) : Prop :=
    match c with
    | CIfAbsent k _ | COrUpdate k _ => exists b, a = ABool b /\ (b = true <-> never cs k)
    | COrExisting k _ | CFind k => exists p, a = APointer p /\ (p = None <-> never cs k) /\ forall w, p = Some w <-> holds cs k w
    | CDefault k v => exists w, a = AValue w /\ (holds cs k w \/ never cs k /\ w = v)
    end.
End Histories.
