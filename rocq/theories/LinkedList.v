(** Pointer-level model of the intrusive circular lists of utils/simple_lru_cache_inl.h: every element has a next
    and a prev pointer, null when the element is on no list.  The recency list runs through head_; the deferred
    values of a key form a ring without a separate head. *)
From Verif Require Import Base.
From stdpp Require Import gmap list.

(** simple_lru_cache_inl.h:159-160 the fields next and prev; an address is a number and null is [None]. *)
Record node := Node { n_next : option nat; n_prev : option nat }.
Notation pheap := (gmap nat node).

Definition rd (x : nat) (m : pheap) : outcome node :=
  match m !! x with Some n => Ok n | None => UB UseAfterFree end.
(** p->... for a pointer value that may be null *)
Definition deref (p : option nat) : outcome nat := match p with Some x => Ok x | None => UB UninitRead end.
(** x->next = v and x->prev = v *)
Definition wr_next (x : nat) (v : option nat) (m : pheap) : outcome pheap :=
  let! n := rd x m in Ok (<[x := Node v (n_prev n)]> m).
Definition wr_prev (x : nat) (v : option nat) (m : pheap) : outcome pheap :=
  let! n := rd x m in Ok (<[x := Node (n_next n) v]> m).

(** simple_lru_cache_inl.h:167-173 IsLinked, with its assertion *)
Definition PIsLinked (e : nat) (m : pheap) : outcome bool :=
  let! n := rd e m in
  if Bool.eqb (bool_decide (n_next n = None)) (bool_decide (n_prev n = None))
  then Ok (negb (bool_decide (n_next n = None))) else Abort.

(** simple_lru_cache_inl.h:175-181 Unlink: the fields are read again for each statement. *)
Definition PUnlink (e : nat) (m : pheap) : outcome pheap :=
  let! linked := PIsLinked e m in
  if negb linked then Ok m else
  let! n := rd e m in let! p := deref (n_prev n) in let! m := wr_next p (n_next n) m in
  let! n := rd e m in let! q := deref (n_next n) in let! m := wr_prev q (n_prev n) m in
  let! m := wr_prev e None m in
  wr_next e None m.

(** simple_lru_cache_inl.h:183-188 Link *)
Definition PLink (e head : nat) (m : pheap) : outcome pheap :=
  let! h := rd head m in let! m := wr_next e (n_next h) m in
  let! m := wr_prev e (Some head) m in
  let! n := rd e m in let! q := deref (n_next n) in let! m := wr_prev q (Some e) m in
  let! n := rd e m in let! p := deref (n_prev n) in wr_next p (Some e) m.

(** simple_lru_cache_inl.h:587-588 head_ in the constructor, 857 the first deferred element of a key *)
Definition PSelf (e : nat) (m : pheap) : outcome pheap :=
  let! m := wr_prev e (Some e) m in wr_next e (Some e) m.

(** simple_lru_cache_inl.h:759 new Elem, 553 delete e *)
Definition PNew (e : nat) (m : pheap) : pheap := <[e := Node None None]> m.
Definition PFree (e : nat) (m : pheap) : outcome pheap := let! _ := rd e m in Ok (delete e m).

(** ** Specification: rings of elements *)
Inductive lop := LNew (x : nat) | LSelf (x : nat) | LLink (x h : nat) | LUnlink (x : nat) | LFree (x : nat).
Definition pstep (o : lop) (m : pheap) : outcome pheap :=
  match o with
  | LNew x => Ok (PNew x m)
  | LSelf x => PSelf x m
  | LLink x h => PLink x h m
  | LUnlink x => PUnlink x m
  | LFree x => PFree x m
  end.

(** What the user has in mind: some lists, read cyclically, and some elements on no list. *)
Record rings := Rings { r_rings : list (list nat); r_loose : list nat }.
Definition on_list (x : nat) (s : rings) : Prop := x ∈ concat (r_rings s).
Definition insert_after (h x : nat) (l : list nat) : list nat :=
  l ≫= fun y => if decide (y = h) then [y; x] else [y].
Definition without (x : nat) (l : list nat) : list nat := filter (fun y => y <> x) l.
Definition rstep (o : lop) (s : rings) : rings :=
  match o with
  | LNew x => Rings (r_rings s) (x :: r_loose s)
  | LSelf x => Rings ([x] :: r_rings s) (without x (r_loose s))
  | LLink x h => Rings (insert_after h x <$> r_rings s) (without x (r_loose s))
  | LUnlink x => Rings (without x <$> r_rings s) (x :: without x (r_loose s))
  | LFree x => Rings (r_rings s) (without x (r_loose s))
  end.
(** Only fresh elements are made, only elements on no list are linked or freed, and only after an element that is
    on a list. *)
Definition lawful_link (o : lop) (s : rings) : Prop :=
  match o with
  | LNew x => ~ on_list x s /\ x ∉ r_loose s
  | LSelf x | LFree x => x ∈ r_loose s
  | LLink x h => x ∈ r_loose s /\ on_list h s
  | LUnlink x => on_list x s \/ x ∈ r_loose s
  end.
Inductive lreach : pheap -> rings -> Prop :=
| lreach_nil : lreach ∅ (Rings [] [])
| lreach_step m s o m' : lreach m s -> lawful_link o s -> pstep o m = Ok m' -> lreach m' (rstep o s).

(** The elements met when following next (or prev) from [x] until coming back to [x]. *)
Fixpoint follow (f : node -> option nat) (m : pheap) (fuel x cur : nat) : option (list nat) :=
  match fuel with
  | O => None
  | S fuel' =>
      match m !! cur with
      | None => None
      | Some n =>
          match f n with
          | None => None
          | Some y => if decide (y = x) then Some [] else (fun l => y :: l) <$> follow f m fuel' x y
          end
      end
  end.
Definition forward (m : pheap) (x : nat) : option (list nat) := follow n_next m (S (size m)) x x.
Definition backward (m : pheap) (x : nat) : option (list nat) := follow n_prev m (S (size m)) x x.
