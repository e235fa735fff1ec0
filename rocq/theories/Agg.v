(** What the three aggregators share: the buffer of removed items (src/cache_removed_items_handler.h) and the
    ownership of the objects whose pointers the cache stores.

    The cache maps signatures to pointers.  The objects live in a pool indexed by addresses that are never
    reused, so using a deleted object is visible as [UB UseAfterFree].
    Simplification: allocation never fails. *)
From Verif Require Import Proto Lru.
Set Implicit Arguments.

(** cache_removed_items_handler.h:93-98 StackBuffer::Add.  [merge new old] is the virtual MergeItem (72-78):
    [None] when it returns false, otherwise the new contents of the old item. *)
Definition add_item {A} (merge : A -> A -> option A) (x : A) (items : list A) : list A :=
  match last items with
  | None => items ++ [x]
  | Some old =>
      match merge x old with
      | None => items ++ [x]
      | Some y => removelast items ++ [y]
      end
  end.
(** cache_removed_items_handler.h:76-78 the default MergeItem. *)
Definition never_merge {A} (new old : A) : option A := None.

(** The objects owned by the cache and the items_ of the stack buffer of the call in progress
    (cache_removed_items_handler.h:66-70, 102-118: stack_buffer_ points to the buffer of the call that holds the
    cache lock; the locking is modelled in Client.v). *)
Record pool (E A : Type) := Pool { p_vals : gmap nat E; p_next : nat; p_items : list A }.
Arguments Pool {E A}. Arguments p_vals {E A}. Arguments p_next {E A}. Arguments p_items {E A}.

Section pool.
Context {E A : Type}.
Implicit Types u : pool E A.

(** Dereferencing a CacheElem* / OperationAggregator*. *)
Definition deref (a : nat) u : outcome E :=
  match p_vals u !! a with Some e => Ok e | None => UB UseAfterFree end.
(** Assigning through such a pointer that was just dereferenced. *)
Definition assign (a : nat) (e : E) u : pool E A := Pool (<[a := e]> (p_vals u)) (p_next u) (p_items u).
(** new *)
Definition alloc (e : E) u : nat * pool E A := (p_next u, Pool (<[p_next u := e]> (p_vals u)) (S (p_next u)) (p_items u)).
(** delete *)
Definition free (a : nat) u : outcome (pool E A) :=
  match p_vals u !! a with Some _ => Ok (Pool (delete a (p_vals u)) (p_next u) (p_items u)) | None => UB UseAfterFree end.
Definition with_items (items : list A) u : pool E A := Pool (p_vals u) (p_next u) items.

(** A deleter that looks at the object, adds what [gone] says to the buffer and deletes the object. *)
Definition delete_with (gone : E -> list A -> list A) u (kv : string * nat) : outcome (pool E A) :=
  let! e := deref kv.2 u in
  free kv.2 (with_items (gone e (p_items u)) u).
End pool.
