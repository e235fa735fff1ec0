(** The helpers for containers, utils/stl_util.h.  Templates are modelled for any key and value types. *)
From Verif Require Import Base.
From stdpp Require Import gmap list.
Local Open Scope Z_scope.

(** The objects made by [new] that have not been deleted, and the next address.  Addresses are not used again, so an access to a deleted
    object is always seen; the destructors of the objects touch no other object. *)
Record heap (E : Type) := Heap { hp_objects : gmap nat E; hp_next : nat }.
Arguments Heap {E} _ _.
Arguments hp_objects {E} _.
Arguments hp_next {E} _.

(** A raw pointer; [None] is NULL. *)
Definition ptr : Type := option nat.

(** [new Element(...)]. *)
Definition new_object {E} (h : heap E) (e : E) : heap E * nat := (Heap (<[hp_next h := e]> (hp_objects h)) (S (hp_next h)), hp_next h).

(** [delete p]: nothing for NULL, undefined for an object that was deleted already. *)
Definition delete_object {E} (h : heap E) (p : ptr) : outcome (heap E) :=
  match p with
  | None => Ok h
  | Some a => match hp_objects h !! a with Some _ => Ok (Heap (delete a (hp_objects h)) (hp_next h)) | None => UB UseAfterFree end
  end.

(** [++begin] past an element.  The iterators of some hash tables compute the bucket of the element that they leave, so they read the
    object that the element points to ([reads]): that object must be there. *)
Definition step_past {E} (reads : bool) (h : heap E) (p : ptr) : outcome unit :=
  match p with
  | Some a => if reads then match hp_objects h !! a with Some _ => Ok tt | None => UB UseAfterFree end else Ok tt
  | None => Ok tt
  end.

(** utils/stl_util.h:50-62, STLDeleteContainerPointers.  The range is the list of its elements in the order of the iterators. *)
Fixpoint STLDeleteContainerPointers {E} (reads : bool) (h : heap E) (l : list ptr) : outcome (heap E) :=
  match l with
  | [] => Ok h
  | p :: l => let! _ := step_past reads h p in let! h := delete_object h p in STLDeleteContainerPointers reads h l
  end.

(** utils/stl_util.h:64-75, STLDeleteContainerPairPointers. *)
Fixpoint STLDeleteContainerPairPointers {E} (reads : bool) (h : heap E) (l : list (ptr * ptr)) : outcome (heap E) :=
  match l with
  | [] => Ok h
  | (p, q) :: l =>
      let! _ := step_past reads h p in
      let! h := delete_object h p in
      let! h := delete_object h q in
      STLDeleteContainerPairPointers reads h l
  end.

(** utils/stl_util.h:77-87, STLDeleteContainerPairFirstPointers. *)
Fixpoint STLDeleteContainerPairFirstPointers {E V} (reads : bool) (h : heap E) (l : list (ptr * V)) : outcome (heap E) :=
  match l with
  | [] => Ok h
  | (p, _) :: l => let! _ := step_past reads h p in let! h := delete_object h p in STLDeleteContainerPairFirstPointers reads h l
  end.

(** utils/stl_util.h:89-102, STLDeleteContainerPairSecondPointers.  The keys are values: going past an element reads no object. *)
Fixpoint STLDeleteContainerPairSecondPointers {E K} (h : heap E) (l : list (K * ptr)) : outcome (heap E) :=
  match l with
  | [] => Ok h
  | (_, p) :: l => let! h := delete_object h p in STLDeleteContainerPairSecondPointers h l
  end.

(** utils/stl_util.h:104-118, STLDeleteElements.  [None] is a NULL container; the result has the container after the call. *)
Definition STLDeleteElements {E} (reads : bool) (h : heap E) (container : option (list ptr)) : outcome (heap E * option (list ptr)) :=
  match container with
  | None => Ok (h, None)
  | Some l => let! h := STLDeleteContainerPointers reads h l in Ok (h, Some [])
  end.

(** utils/stl_util.h:120-128, STLDeleteValues. *)
Definition STLDeleteValues {E K} (h : heap E) (v : option (list (K * ptr))) : outcome (heap E * option (list (K * ptr))) :=
  match v with
  | None => Ok (h, None)
  | Some l => let! h := STLDeleteContainerPairSecondPointers h l in Ok (h, Some [])
  end.

Section Maps.
  Context {K : Type} `{Countable K}.

  (** [collection->insert(value)] of a map: the map and whether the pair was inserted. *)
  Definition collection_insert {V} (m : gmap K V) (k : K) (v : V) : gmap K V * bool :=
    match m !! k with Some _ => (m, false) | None => (<[k := v]> m, true) end.

  (** utils/stl_util.h:130-147, LookupOrInsertNew, and :149-163 with the argument of the constructor: [e] is the new object's value.  The
      reference that is returned is the pointer in the map: the result has its value. *)
  Definition LookupOrInsertNew {E} (h : heap E) (m : gmap K ptr) (k : K) (e : E) : heap E * gmap K ptr * ptr :=
    let (m, inserted) := collection_insert m k None in
    if inserted then let (h, a) := new_object h e in (h, <[k := Some a]> m, Some a)
    else (h, m, default None (m !! k)).

  (** utils/stl_util.h:165-183, InsertIfNotPresent. *)
  Definition InsertIfNotPresent {V} (m : gmap K V) (k : K) (v : V) : gmap K V * bool := collection_insert m k v.

  (** utils/stl_util.h:185-207, InsertOrUpdate. *)
  Definition InsertOrUpdate {V} (m : gmap K V) (k : K) (v : V) : gmap K V * bool :=
    let (m, inserted) := collection_insert m k v in
    if inserted then (m, true) else (<[k := v]> m, false).

  (** utils/stl_util.h:209-235, InsertOrReturnExisting.  A pointer to a value in the map is modelled by the value it points to. *)
  Definition InsertOrReturnExisting {V} (m : gmap K V) (k : K) (v : V) : gmap K V * option V :=
    let (m, inserted) := collection_insert m k v in
    if inserted then (m, None) else (m, m !! k).

  (** utils/stl_util.h:237-257, FindWithDefault. *)
  Definition FindWithDefault {V} (m : gmap K V) (k : K) (v : V) : V := match m !! k with None => v | Some w => w end.

  (** utils/stl_util.h:259-282, FindOrNull. *)
  Definition FindOrNull {V} (m : gmap K V) (k : K) : option V := match m !! k with None => None | Some w => Some w end.

  (** utils/stl_util.h:284-314, FindPtrOrNull. *)
  Definition FindPtrOrNull (m : gmap K ptr) (k : K) : ptr := match m !! k with None => None | Some w => w end.

  (** A call of one of the helpers on a map of values, and what the caller sees. *)
  Inductive map_call (V : Type) := CIfAbsent (k : K) (v : V) | COrUpdate (k : K) (v : V) | COrExisting (k : K) (v : V) | CDefault (k : K) (v : V) | CFind (k : K).
  Global Arguments CIfAbsent {V}. Global Arguments COrUpdate {V}. Global Arguments COrExisting {V}. Global Arguments CDefault {V}. Global Arguments CFind {V}.
  Inductive map_answer (V : Type) := ABool (b : bool) | AValue (v : V) | APointer (p : option V).
  Global Arguments ABool {V}. Global Arguments AValue {V}. Global Arguments APointer {V}.
  Definition map_step {V} (m : gmap K V) (c : map_call V) : gmap K V * map_answer V :=
    match c with
    | CIfAbsent k v => let (m, b) := InsertIfNotPresent m k v in (m, ABool b)
    | COrUpdate k v => let (m, b) := InsertOrUpdate m k v in (m, ABool b)
    | COrExisting k v => let (m, p) := InsertOrReturnExisting m k v in (m, APointer p)
    | CDefault k v => (m, AValue (FindWithDefault m k v))
    | CFind k => (m, APointer (FindOrNull m k))
    end.
  (** A history of calls: the map and the answers. *)
  Fixpoint map_run {V} (m : gmap K V) (cs : list (map_call V)) : gmap K V * list (map_answer V) :=
    match cs with
    | [] => (m, [])
    | c :: cs => let (m, a) := map_step m c in let (m, l) := map_run m cs in (m, a :: l)
    end.
  (** Calls of LookupOrInsertNew, one after the other: the heap, the map and the pointers returned. *)
  Fixpoint lookup_run {E} (h : heap E) (m : gmap K ptr) (ks : list (K * E)) : heap E * gmap K ptr * list ptr :=
    match ks with
    | [] => (h, m, [])
    | (k, e) :: ks => let '(h, m, p) := LookupOrInsertNew h m k e in let '(h, m, l) := lookup_run h m ks in (h, m, p :: l)
    end.
End Maps.
Arguments map_call K V : clear implicits.
