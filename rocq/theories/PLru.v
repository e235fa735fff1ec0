(** Pointer-level model of the whole cache of utils/simple_lru_cache_inl.h.

    [Lru.v] keeps the recency list and the deferred values of each key as lists.  Here every call is written again
    with the next and prev pointers of the code: Unlink, Link and the walks along prev and next are those of
    LinkedList.v, defer_ holds one element of a ring, and a null or dangling pointer that is followed gives [UB].
    Elements are numbered in the order in which they are made; element [n] is at address [S n] and head_ at address 0.
    As in Lru.v the deleter is a function of the whole state, so that it may call back into the cache, as the quota
    aggregator's does; its nesting is bounded by whoever defines it.
    Simplifications: as in Lru.v; head_ is never reached when a deferred ring is walked, so a ring that contained it would be [UB ListCorruption]. *)
From stdpp Require Import gmap.
From Verif Require Import Base Proto Lru LinkedList.
Local Open Scope Z_scope.
Set Implicit Arguments.

(** simple_lru_cache_inl.h:153-166 the elements, 530-541 the fields of SimpleLRUCacheBase. *)
Record plru (V : Type) := PLru {
  p_heap : gmap nat (elem V);       (* the other fields of the elements *)
  p_links : pheap;                  (* next and prev of head_ and of the elements *)
  p_next : nat;
  p_table : gmap string nat;
  p_defer : gmap string nat;        (* defer_: one element of each ring, its head *)
  p_units : Z;
  p_max : Z;
  p_pinned : Z;
  p_idle : Z;
  p_lru : bool;
  p_tick : nat
}.
Arguments p_heap {V}. Arguments p_links {V}. Arguments p_next {V}. Arguments p_table {V}. Arguments p_defer {V}. Arguments p_units {V}. Arguments p_max {V}. Arguments p_pinned {V}. Arguments p_idle {V}. Arguments p_lru {V}. Arguments p_tick {V}.

Section cache.
Context {V U : Type} `{!EqDecision V}.
Definition pworld := (plru V * U)%type.
(** The deleter, called from RemoveElement (simple_lru_cache_inl.h:498, 1080) with the cache and the owner's state. *)
Variable f : string -> V -> pworld -> outcome pworld.
(** The clock, the iteration order of the hash tables and the loop budget, as in Lru.v. *)
Variable clk : nat -> Z.
Variable ord : hash_order.
Variable fuel : nat.

(** A deleter that leaves the cache alone; [g] is what it does to the owner's state. *)
Definition p_passive (g : U -> string * V -> outcome U) (k : string) (v : V) (w : pworld) : outcome pworld :=
  let! u := g w.2 (k, v) in Ok (w.1, u).

(** ** Field updates *)
Definition pset_heap x (p : plru V) : plru V := PLru x (p_links p) (p_next p) (p_table p) (p_defer p) (p_units p) (p_max p) (p_pinned p) (p_idle p) (p_lru p) (p_tick p).
Definition pset_links x (p : plru V) : plru V := PLru (p_heap p) x (p_next p) (p_table p) (p_defer p) (p_units p) (p_max p) (p_pinned p) (p_idle p) (p_lru p) (p_tick p).
Definition pset_next x (p : plru V) : plru V := PLru (p_heap p) (p_links p) x (p_table p) (p_defer p) (p_units p) (p_max p) (p_pinned p) (p_idle p) (p_lru p) (p_tick p).
Definition pset_table x (p : plru V) : plru V := PLru (p_heap p) (p_links p) (p_next p) x (p_defer p) (p_units p) (p_max p) (p_pinned p) (p_idle p) (p_lru p) (p_tick p).
Definition pset_defer x (p : plru V) : plru V := PLru (p_heap p) (p_links p) (p_next p) (p_table p) x (p_units p) (p_max p) (p_pinned p) (p_idle p) (p_lru p) (p_tick p).
Definition pset_units x (p : plru V) : plru V := PLru (p_heap p) (p_links p) (p_next p) (p_table p) (p_defer p) x (p_max p) (p_pinned p) (p_idle p) (p_lru p) (p_tick p).
Definition pset_max x (p : plru V) : plru V := PLru (p_heap p) (p_links p) (p_next p) (p_table p) (p_defer p) (p_units p) x (p_pinned p) (p_idle p) (p_lru p) (p_tick p).
Definition pset_pinned x (p : plru V) : plru V := PLru (p_heap p) (p_links p) (p_next p) (p_table p) (p_defer p) (p_units p) (p_max p) x (p_idle p) (p_lru p) (p_tick p).
Definition pset_idle x (p : plru V) : plru V := PLru (p_heap p) (p_links p) (p_next p) (p_table p) (p_defer p) (p_units p) (p_max p) (p_pinned p) x (p_lru p) (p_tick p).
Definition pset_lru x (p : plru V) : plru V := PLru (p_heap p) (p_links p) (p_next p) (p_table p) (p_defer p) (p_units p) (p_max p) (p_pinned p) (p_idle p) x (p_tick p).
Definition pset_tick x (p : plru V) : plru V := PLru (p_heap p) (p_links p) (p_next p) (p_table p) (p_defer p) (p_units p) (p_max p) (p_pinned p) (p_idle p) (p_lru p) x.

(** Dereferencing an Elem*. *)
Definition pload (n : nat) (p : plru V) : outcome (elem V) :=
  match p_heap p !! n with Some e => Ok e | None => UB UseAfterFree end.
Definition pstore (n : nat) (e : elem V) (p : plru V) : plru V := pset_heap (<[n := e]> (p_heap p)) p.
(** Reading x->prev and x->next for the purpose of following it. *)
Definition prev_ptr (x : nat) (p : plru V) : outcome nat := let! nd := rd x (p_links p) in deref (n_prev nd).
Definition next_ptr (x : nat) (p : plru V) : outcome nat := let! nd := rd x (p_links p) in deref (n_next nd).
(** Unlink, Link and the like on the heap of pointers. *)
Definition on_links (g : pheap -> outcome pheap) (p : plru V) : outcome (plru V) :=
  let! m := g (p_links p) in Ok (pset_links m p).
(** e->prev of an element of a deferred ring. *)
Definition prev_elem (n : nat) (p : plru V) : outcome nat :=
  let! x := prev_ptr (S n) p in match x with O => UB ListCorruption | S n' => Ok n' end.

Definition POverfull (p : plru V) : bool := p_max p <? p_units p.
Definition p_now (p : plru V) : Z := clk (p_tick p).
Definition p_ticked (p : plru V) : plru V := pset_tick (S (p_tick p)) p.

(** simple_lru_cache_inl.h:580-591 the constructor: head_.next = head_.prev = &head_. *)
Definition PNewCache (total_units : Z) : outcome (plru V) :=
  let! m := PSelf 0 (PNew 0 ∅) in Ok (PLru ∅ m 0 ∅ ∅ 0 total_units 0 (-1) true 0).

(** simple_lru_cache_inl.h:549-554 Discard. *)
Definition PDiscard (n : nat) (w : pworld) : outcome pworld :=
  let! e := pload n w.1 in
  let! _ := assert_ (e_pin e =? 0) in
  let p := pset_units (p_units w.1 - e_units e) w.1 in
  let! w' := f (e_key e) (e_value e) (p, w.2) in
  let! p := on_links (PFree (S n)) w'.1 in
  Ok (pset_heap (delete n (p_heap p)) p, w'.2).

(** simple_lru_cache_inl.h:845-867 Remove(Elem* ). *)
Definition PRemoveElem (n : nat) (w : pworld) : outcome pworld :=
  let! p := on_links (PUnlink (S n)) w.1 in
  let! e := pload n p in
  if 0 <? e_pin e then
    let p := pset_pinned (p_pinned p - e_units e) p in
    match p_defer p !! e_key e with
    | None =>
        let! p := on_links (PSelf (S n)) p in
        Ok (pset_defer (<[e_key e := n]> (p_defer p)) p, w.2)
    | Some h => let! p := on_links (PLink (S n) (S h)) p in Ok (p, w.2)
    end
  else PDiscard n (p, w.2).

(** simple_lru_cache_inl.h:835-843 Remove(k). *)
Definition PRemove (k : string) (w : pworld) : outcome pworld :=
  match p_table w.1 !! k with
  | None => Ok w
  | Some n => PRemoveElem n (pset_table (delete k (p_table w.1)) w.1, w.2)
  end.

(** simple_lru_cache_inl.h:869-885 GarbageCollect; [x] is the variable e, as an address. *)
Fixpoint p_gc (n : nat) (x : nat) (w : pworld) : outcome pworld :=
  match n with
  | O => OutOfFuel
  | S n' =>
      if POverfull w.1 then
        match x with
        | O => Ok w
        | S i =>
            let! prev := prev_ptr x w.1 in
            let! e := pload i w.1 in
            let! w' :=
              (if e_pin e =? 0 then
                 let! _ := assert_ (bool_decide (p_table w.1 !! e_key e = Some i)) in
                 let! p := on_links (PUnlink x) (pset_table (delete (e_key e) (p_table w.1)) w.1) in
                 PDiscard i (p, w.2)
               else Ok w) in
            p_gc n' prev w'
        end
      else Ok w
  end.
Definition PGarbageCollect (w : pworld) : outcome pworld :=
  let! x := prev_ptr 0 w.1 in p_gc fuel x w.

(** simple_lru_cache_inl.h:887-929 DiscardIdle. *)
Fixpoint p_idle_loop (n : nat) (threshold last : Z) (x : nat) (w : pworld) : outcome pworld :=
  match n with
  | O => OutOfFuel
  | S n' =>
      match x with
      | O => Ok w
      | S i =>
          let! e := pload i w.1 in
          if e_last e <? threshold then
            let! _ := assert_ (last <=? e_last e + 1) in
            let! prev := prev_ptr x w.1 in
            let! _ := assert_ ((e_pin e =? 0) || negb (p_lru w.1)) in
            let! w' := PRemove (e_key e) w in
            p_idle_loop n' threshold (e_last e) prev w'
          else Ok w
      end
  end.
Definition PDiscardIdle (max_idle : Z) (w : pworld) : outcome pworld :=
  if max_idle <? 0 then Ok w
  else
    let! x := prev_ptr 0 w.1 in
    let threshold := p_now w.1 - max_idle in
    p_idle_loop fuel threshold 0 x (p_ticked w.1, w.2).

(** simple_lru_cache_inl.h:411-413 RemoveExpiredEntries. *)
Definition PRemoveExpired (w : pworld) : outcome pworld :=
  if 0 <=? p_idle w.1 then PDiscardIdle (p_idle w.1) w else Ok w.

(** simple_lru_cache_inl.h:299-302 SetMaxSize. *)
Definition PSetMaxSize (total_units : Z) (w : pworld) : outcome pworld :=
  PGarbageCollect (pset_max total_units w.1, w.2).

(** simple_lru_cache_inl.h:593-629 SetTimeout, after the conversion of the timeout (as in Lru.v). *)
Definition PSetTimeout (cycles : option Z) (lru_flag : bool) (w : pworld) : outcome pworld :=
  match cycles with
  | None => Ok (pset_idle (-1) (pset_lru lru_flag w.1), w.2)
  | Some n =>
      if (0 <=? p_idle w.1) && negb (Bool.eqb lru_flag (p_lru w.1)) then Abort
      else PDiscardIdle n (pset_idle n (pset_lru lru_flag w.1), w.2)
  end.

(** simple_lru_cache_inl.h:672-691 LookupWithOptions. *)
Definition PLookup (update : bool) (k : string) (w : pworld) : outcome (pworld * option V) :=
  let! w := PRemoveExpired w in
  match p_table w.1 !! k with
  | None => Ok (w, None)
  | Some n =>
      let! e := pload n w.1 in
      let! p :=
        (if e_pin e =? 0 then
           let p := pset_pinned (p_pinned w.1 + e_units e) w.1 in
           if p_lru p && update then on_links (PUnlink (S n)) p else Ok p
         else Ok w.1) in
      Ok ((pstore n (set_pin (e_pin e + 1) e) p, w.2), Some (e_value e))
  end.

(** simple_lru_cache_inl.h:702-704 the scan of a deferred ring: from [i] along prev to the head or the value. *)
Fixpoint p_scan (n : nat) (head i : nat) (v : V) (p : plru V) : outcome nat :=
  match n with
  | O => OutOfFuel
  | S n' =>
      if decide (i = head) then Ok i else
      let! e := pload i p in
      if decide (e_value e = v) then Ok i else
      let! i' := prev_elem i p in p_scan n' head i' v p
  end.
(** simple_lru_cache_inl.h:711-721 when the head of a ring leaves it, the element before it becomes the head, under
    its own key. *)
Definition p_rehead (k : string) (head i : nat) (p : plru V) : outcome (plru V) :=
  if decide (i = head) then
    let p := pset_defer (delete k (p_defer p)) p in
    let! q := prev_elem i p in
    if decide (q = i) then Ok p else
    let! eq := pload q p in
    Ok (pset_defer (<[e_key eq := q]> (p_defer p)) p)
  else Ok p.

(** simple_lru_cache_inl.h:729-748 ReleaseWithOptions for a value that is not deferred. *)
Definition p_release_cached (update : bool) (k : string) (v : V) (w : pworld) : outcome pworld :=
  match p_table w.1 !! k with
  | None => Abort
  | Some n =>
      let! e := pload n w.1 in
      let! _ := assert_ (bool_decide (e_value e = v)) in
      let! _ := assert_ (0 <? e_pin e) in
      let touch := p_lru w.1 && update in
      let e1 := if touch then set_last (p_now w.1) e else e in
      let p := if touch then p_ticked w.1 else w.1 in
      let e2 := set_pin (e_pin e1 - 1) e1 in
      let p := pstore n e2 p in
      if e_pin e2 =? 0 then
        let! p := (if touch then on_links (PLink (S n) 0) p else Ok p) in
        let p := pset_pinned (p_pinned p - e_units e2) p in
        if POverfull p then PRemove k (p, w.2) else Ok (p, w.2)
      else Ok (p, w.2)
  end.

(** simple_lru_cache_inl.h:693-749 ReleaseWithOptions. *)
Definition PRelease (update : bool) (k : string) (v : V) (w : pworld) : outcome pworld :=
  match p_defer w.1 !! k with
  | Some head =>
      let! i := prev_elem head w.1 in
      let! i := p_scan (S (size (p_links w.1))) head i v w.1 in
      let! e := pload i w.1 in
      if decide (e_value e = v) then
        let! _ := assert_ (0 <? e_pin e) in
        let e := set_pin (e_pin e - 1) e in
        let p := pstore i e w.1 in
        if e_pin e =? 0 then
          let! p := p_rehead k head i p in
          let! p := on_links (PUnlink (S i)) p in
          PDiscard i (p, w.2)
        else Ok (p, w.2)
      else p_release_cached update k v w
  | None => p_release_cached update k v w
  end.

(** simple_lru_cache_inl.h:751-771 InsertPinned. *)
Definition PInsertPinned (k : string) (v : V) (units : Z) (w : pworld) : outcome pworld :=
  let! w := PRemove k w in
  let n := p_next w.1 in
  let e := Elem k v 1 units (p_now w.1) in
  let! p := on_links (fun m => Ok (PNew (S n) m)) (pset_next (S n) (pstore n e (p_ticked w.1))) in
  let p := pset_pinned (p_pinned p + units) (pset_units (p_units p + units) p) in
  let p := pset_table (<[k := n]> (p_table p)) p in
  let! p := (if p_lru p then Ok p else on_links (PLink (S n) 0) p) in
  PGarbageCollect (p, w.2).
(** simple_lru_cache_inl.h:366-369 Insert. *)
Definition PInsert (k : string) (v : V) (units : Z) (w : pworld) : outcome pworld :=
  let! w := PInsertPinned k v units w in
  PRelease true k v w.

(** simple_lru_cache_inl.h:794-802 the loop of UpdateSize around a deferred ring. *)
Fixpoint p_resize (n : nat) (head i : nat) (v : option V) (units : Z) (p : plru V) : outcome (plru V) :=
  match n with
  | O => OutOfFuel
  | S n' =>
      let! e := pload i p in
      let hit := match v with None => true | Some v => bool_decide (e_value e = v) end in
      let p := if hit then pstore i (set_elem_units units e) (pset_units (p_units p - e_units e + units) p) else p in
      let! i' := prev_elem i p in
      if decide (i' = head) then Ok p else p_resize n' head i' v units p
  end.
(** simple_lru_cache_inl.h:773-806 UpdateSize; a null value is [None]. *)
Definition PUpdateSize (k : string) (v : option V) (units : Z) (w : pworld) : outcome pworld :=
  let p := w.1 in
  let deferred (_ : unit) :=
    match p_defer p !! k with None => Ok p | Some h => p_resize (S (size (p_links p))) h h v units p end in
  let! p :=
    match p_table p !! k with
    | Some n =>
        let! e := pload n p in
        if match v with None => true | Some v => bool_decide (e_value e = v) end then
          let p := pset_units (p_units p - e_units e + units) p in
          let p := if 0 <? e_pin e then pset_pinned (p_pinned p - e_units e + units) p else p in
          Ok (pstore n (set_elem_units units e) p)
        else deferred tt
    | None => deferred tt
    end in
  PGarbageCollect (p, w.2).

(** simple_lru_cache_inl.h:820-833 InDeferredTable, 808-818 StillInUse. *)
Fixpoint p_any (n : nat) (head i : nat) (v : option V) (p : plru V) : outcome bool :=
  match n with
  | O => OutOfFuel
  | S n' =>
      let! e := pload i p in
      if match v with None => true | Some v => bool_decide (e_value e = v) end then Ok true else
      let! i' := prev_elem i p in
      if decide (i' = head) then Ok false else p_any n' head i' v p
  end.
Definition PInDeferredTable (k : string) (v : option V) (p : plru V) : outcome bool :=
  match p_defer p !! k with None => Ok false | Some h => p_any (S (size (p_links p))) h h v p end.
Definition PStillInUse (k : string) (v : option V) (p : plru V) : outcome bool :=
  match p_table p !! k with
  | Some n =>
      let! e := pload n p in
      if match v with None => true | Some v => bool_decide (e_value e = v) end then Ok true
      else PInDeferredTable k v p
  | None => PInDeferredTable k v p
  end.

(** simple_lru_cache_inl.h:631-638 RemoveAll. *)
Fixpoint p_remove_each (ids : list (string * nat)) (w : pworld) : outcome pworld :=
  match ids with
  | [] => Ok w
  | (_, n) :: ids' => let! w := PRemoveElem n w in p_remove_each ids' w
  end.
Definition PRemoveAll (w : pworld) : outcome pworld :=
  let! w := p_remove_each (ho_list ord (p_table w.1)) w in
  Ok (pset_table ∅ w.1, w.2).

(** simple_lru_cache_inl.h:640-647 RemoveUnpinned. *)
Fixpoint p_unpinned_loop (n : nat) (x : nat) (w : pworld) : outcome pworld :=
  match n with
  | O => OutOfFuel
  | S n' =>
      match x with
      | O => Ok w
      | S i =>
          let! next := next_ptr x w.1 in
          let! e := pload i w.1 in
          let! w' := (if e_pin e =? 0 then PRemove (e_key e) w else Ok w) in
          p_unpinned_loop n' next w'
      end
  end.
Definition PRemoveUnpinned (w : pworld) : outcome pworld :=
  let! x := next_ptr 0 w.1 in p_unpinned_loop fuel x w.

(** simple_lru_cache_inl.h:649-670 Clear: the elements are deleted without being unlinked. *)
Fixpoint p_discard_each (ids : list (string * nat)) (w : pworld) : outcome pworld :=
  match ids with
  | [] => Ok w
  | (_, n) :: ids' => let! w := PDiscard n w in p_discard_each ids' w
  end.
Definition PClear (w : pworld) : outcome pworld :=
  let! w := p_discard_each (ho_list ord (p_table w.1)) w in
  let! _ := assert_ (bool_decide (p_defer w.1 = ∅)) in
  let! p := on_links (PSelf 0) (pset_table ∅ w.1) in
  Ok (pset_pinned 0 (pset_units 0 p), w.2).

(** simple_lru_cache_inl.h:931-944 CountDeferredEntries: the number and the total size. *)
Fixpoint p_count (n : nat) (head i : nat) (p : plru V) : outcome (Z * Z) :=
  match n with
  | O => OutOfFuel
  | S n' =>
      let! e := pload i p in
      let! i' := prev_elem i p in
      if decide (i' = head) then Ok (1, e_units e) else
      let! r := p_count n' head i' p in Ok (1 + r.1, e_units e + r.2)
  end.
Fixpoint p_count_all (heads : list nat) (p : plru V) : outcome (Z * Z) :=
  match heads with
  | [] => Ok (0, 0)
  | h :: heads' =>
      let! r := p_count (S (size (p_links p))) h h p in
      let! r' := p_count_all heads' p in Ok (r.1 + r'.1, r.2 + r'.2)
  end.
Definition PCountDeferred (p : plru V) : outcome (Z * Z) := p_count_all ((map_to_list (p_defer p)).*2) p.

(** simple_lru_cache_inl.h:961-967 AgeOfLRUItemInMicroseconds. *)
Definition PAgeOfLRUItem (p : plru V) : outcome Z :=
  let! x := prev_ptr 0 p in
  match x with
  | O => Ok 0
  | S i => let! e := pload i p in Ok (p_now p - e_last e)
  end.
End cache.
