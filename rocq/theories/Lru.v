(** Model of utils/simple_lru_cache_inl.h: SimpleLRUCacheBase.

    Element objects live in a heap indexed by identifiers that are never reused, so an access through a
    dangling pointer is visible as [UB UseAfterFree].  The circular doubly linked recency list is kept as the
    list of its elements, most recently used first; the pointer surgery that implements it is modelled
    separately in LinkedList.v.  Failed asserts give [Abort].
    Simplifications: sizes and clock values are unbounded integers (no int64/size_t wrap-around); the virtual
    IsOverfull is not overridden (no subclass in /repo does); allocation never fails; the debugging output
    and ResizeTable are not modelled.  ScopedLookup and the iterator class are in LruPeek.v. *)
From stdpp Require Import gmap.
From Verif Require Import Base Proto.
Local Open Scope Z_scope.
Set Implicit Arguments.

(** simple_lru_cache_inl.h:153-166 SimpleLRUCacheElem; next and prev are represented by the lists below. *)
Record elem (V : Type) := Elem {
  e_key : string;
  e_value : V;                 (* Value*: the address of the value *)
  e_pin : Z;
  e_units : Z;
  e_last : Z                   (* last_use_ *)
}.
Arguments e_key {V}. Arguments e_value {V}. Arguments e_pin {V}. Arguments e_units {V}. Arguments e_last {V}.

(** simple_lru_cache_inl.h:530-541 the fields of SimpleLRUCacheBase.
    [l_next_id] is the next unused element identifier and [l_tick] counts the clock readings made so far. *)
Record lru (V : Type) := Lru {
  l_heap : gmap nat (elem V);
  l_next_id : nat;
  l_table : gmap string nat;          (* table_ *)
  l_defer : gmap string (list nat);   (* defer_: the circular list from its head along next *)
  l_list : list nat;                  (* the list from head_.next (most recently used) along next *)
  l_units : Z;
  l_max : Z;
  l_pinned : Z;
  l_idle : Z;                         (* max_idle_ *)
  l_lru : bool;                       (* lru_ *)
  l_tick : nat
}.
Arguments l_heap {V}. Arguments l_next_id {V}. Arguments l_table {V}. Arguments l_defer {V}. Arguments l_list {V}. Arguments l_units {V}. Arguments l_max {V}. Arguments l_pinned {V}. Arguments l_idle {V}. Arguments l_lru {V}. Arguments l_tick {V}. 

Section cache.
Context {V U : Type} `{!EqDecision V}.

(** The cache together with the state of its owner, on which the deleter works. *)
Definition world := (lru V * U)%type.

(** RemoveElement (simple_lru_cache_inl.h:498, 1080: calls the deleter supplied by the owner).  It receives the whole
    world because a deleter may call back into the cache. *)
Variable del : string -> V -> world -> outcome world.
(** SimpleCycleTimer::Now (simple_lru_cache_inl.h:74-87): the n-th reading of the clock, in microseconds. *)
Variable clk : nat -> Z.
(** The iteration order of the hash tables. *)
Variable ord : hash_order.
(** Loop budget. *)
Variable fuel : nat.

(** ** Field updates *)
Definition set_heap h (c : lru V) : lru V := Lru h (l_next_id c) (l_table c) (l_defer c) (l_list c) (l_units c) (l_max c) (l_pinned c) (l_idle c) (l_lru c) (l_tick c).
Definition set_next n (c : lru V) : lru V := Lru (l_heap c) n (l_table c) (l_defer c) (l_list c) (l_units c) (l_max c) (l_pinned c) (l_idle c) (l_lru c) (l_tick c).
Definition set_table t (c : lru V) : lru V := Lru (l_heap c) (l_next_id c) t (l_defer c) (l_list c) (l_units c) (l_max c) (l_pinned c) (l_idle c) (l_lru c) (l_tick c).
Definition set_defer d (c : lru V) : lru V := Lru (l_heap c) (l_next_id c) (l_table c) d (l_list c) (l_units c) (l_max c) (l_pinned c) (l_idle c) (l_lru c) (l_tick c).
Definition set_list l (c : lru V) : lru V := Lru (l_heap c) (l_next_id c) (l_table c) (l_defer c) l (l_units c) (l_max c) (l_pinned c) (l_idle c) (l_lru c) (l_tick c).
Definition set_units u (c : lru V) : lru V := Lru (l_heap c) (l_next_id c) (l_table c) (l_defer c) (l_list c) u (l_max c) (l_pinned c) (l_idle c) (l_lru c) (l_tick c).
Definition set_max m (c : lru V) : lru V := Lru (l_heap c) (l_next_id c) (l_table c) (l_defer c) (l_list c) (l_units c) m (l_pinned c) (l_idle c) (l_lru c) (l_tick c).
Definition set_pinned p (c : lru V) : lru V := Lru (l_heap c) (l_next_id c) (l_table c) (l_defer c) (l_list c) (l_units c) (l_max c) p (l_idle c) (l_lru c) (l_tick c).
Definition set_idle i (c : lru V) : lru V := Lru (l_heap c) (l_next_id c) (l_table c) (l_defer c) (l_list c) (l_units c) (l_max c) (l_pinned c) i (l_lru c) (l_tick c).
Definition set_lru b (c : lru V) : lru V := Lru (l_heap c) (l_next_id c) (l_table c) (l_defer c) (l_list c) (l_units c) (l_max c) (l_pinned c) (l_idle c) b (l_tick c).
Definition set_tick n (c : lru V) : lru V := Lru (l_heap c) (l_next_id c) (l_table c) (l_defer c) (l_list c) (l_units c) (l_max c) (l_pinned c) (l_idle c) (l_lru c) n.

Definition set_pin p (e : elem V) : elem V := Elem (e_key e) (e_value e) p (e_units e) (e_last e).
Definition set_last t (e : elem V) : elem V := Elem (e_key e) (e_value e) (e_pin e) (e_units e) t.
Definition set_elem_units u (e : elem V) : elem V := Elem (e_key e) (e_value e) (e_pin e) u (e_last e).

(** Dereferencing an Elem*. *)
Definition load (id : nat) (c : lru V) : outcome (elem V) :=
  match l_heap c !! id with Some e => Ok e | None => UB UseAfterFree end.
Definition store (id : nat) (e : elem V) (c : lru V) : lru V := set_heap (<[id := e]> (l_heap c)) c.

(** assert(b) in a debug build. *)
Definition assert_ (b : bool) : outcome unit := if b then Ok tt else Abort.

(** One reading of the clock. *)
Definition read_now (c : lru V) : Z := clk (l_tick c).
Definition after_now (c : lru V) : lru V := set_tick (S (l_tick c)) c.

(** simple_lru_cache_inl.h:580-591 the constructor. *)
Definition NewCache (total_units : Z) : lru V :=
  Lru ∅ 0 ∅ ∅ [] 0 total_units 0 (-1) true 0.

(** simple_lru_cache_inl.h:519, 568-570 IsOverfull, IsOverfullInternal. *)
Definition Overfull (c : lru V) : bool := l_max c <? l_units c.

(** simple_lru_cache_inl.h:175-181 Elem::Unlink for an element of the recency list (a no-op when unlinked). *)
Definition Unlink (id : nat) (c : lru V) : lru V :=
  set_list (filter (fun x => x <> id) (l_list c)) c.

(** simple_lru_cache_inl.h:183-188 Elem::Link(&head_).  Linking an element that is already on the list
    corrupts it. *)
Definition LinkFront (id : nat) (c : lru V) : outcome (lru V) :=
  if decide (id ∈ l_list c) then UB ListCorruption else Ok (set_list (id :: l_list c) c).

(** Reading e->prev of an element on the recency list: the next more recently used element, or head_ ([None]).
    An element that is not on a list has a null prev. *)
Fixpoint prev_in (before : option nat) (id : nat) (l : list nat) : outcome (option nat) :=
  match l with
  | [] => UB UninitRead
  | x :: l' => if decide (x = id) then Ok before else prev_in (Some x) id l'
  end.
Definition prev_of (id : nat) (c : lru V) : outcome (option nat) := prev_in None id (l_list c).

(** head_.prev: the least recently used element, or head_ itself when the list is empty. *)
Definition list_tail (c : lru V) : option nat := last (l_list c).

(** simple_lru_cache_inl.h:549-554 Discard: the deleter runs before the element is freed. *)
Definition Discard (id : nat) (w : world) : outcome world :=
  let! e := load id w.1 in
  let! _ := assert_ (e_pin e =? 0) in
  let c := set_units (l_units w.1 - e_units e) w.1 in
  let! w' := del (e_key e) (e_value e) (c, w.2) in
  match l_heap w'.1 !! id with
  | None => UB UseAfterFree
  | Some _ => Ok (set_heap (delete id (l_heap w'.1)) w'.1, w'.2)
  end.

(** simple_lru_cache_inl.h:845-867 Remove(Elem* ).  The deferred list of a key is kept from its head along
    next; Link(head) puts the element right after the head. *)
Definition RemoveElem (id : nat) (w : world) : outcome world :=
  let! e := load id w.1 in
  let c := Unlink id w.1 in
  if 0 <? e_pin e then
    let c := set_pinned (l_pinned c - e_units e) c in
    match l_defer c !! e_key e with
    | None => Ok (set_defer (<[e_key e := [id]]> (l_defer c)) c, w.2)
    | Some [] => UB UninitRead
    | Some (h :: l) => Ok (set_defer (<[e_key e := h :: id :: l]> (l_defer c)) c, w.2)
    end
  else Discard id (c, w.2).

(** simple_lru_cache_inl.h:835-843 Remove(k). *)
Definition Remove (k : string) (w : world) : outcome world :=
  match l_table w.1 !! k with
  | None => Ok w
  | Some id => RemoveElem id (set_table (delete k (l_table w.1)) w.1, w.2)
  end.

(** simple_lru_cache_inl.h:869-885 GarbageCollect: walks from the least recently used end, having saved the
    pointer to the next candidate before the current one is discarded. *)
Fixpoint gc (n : nat) (cur : option nat) (w : world) : outcome world :=
  match n with
  | O => OutOfFuel
  | S n' =>
      if Overfull w.1 then
        match cur with
        | None => Ok w
        | Some id =>
            let! e := load id w.1 in
            let! prev := prev_of id w.1 in
            let! w' :=
              (if e_pin e =? 0 then
                 let! _ := assert_ (bool_decide (l_table w.1 !! e_key e = Some id)) in
                 let c := Unlink id (set_table (delete (e_key e) (l_table w.1)) w.1) in
                 Discard id (c, w.2)
               else Ok w) in
            gc n' prev w'
        end
      else Ok w
  end.
Definition GarbageCollect (w : world) : outcome world := gc fuel (list_tail w.1) w.

(** simple_lru_cache_inl.h:887-929 DiscardIdle.  [last] is the debug-only variable of the sortedness check;
    kAcceptableClockSynchronizationDriftCycles is 1. *)
Fixpoint idle_loop (n : nat) (threshold last : Z) (cur : option nat) (w : world) : outcome world :=
  match n with
  | O => OutOfFuel
  | S n' =>
      match cur with
      | None => Ok w
      | Some id =>
          let! e := load id w.1 in
          if e_last e <? threshold then
            let! _ := assert_ (last <=? e_last e + 1) in
            let! prev := prev_of id w.1 in
            let! _ := assert_ ((e_pin e =? 0) || negb (l_lru w.1)) in
            let! w' := Remove (e_key e) w in
            idle_loop n' threshold (e_last e) prev w'
          else Ok w
      end
  end.
Definition DiscardIdle (max_idle : Z) (w : world) : outcome world :=
  if max_idle <? 0 then Ok w
  else
    let threshold := read_now w.1 - max_idle in
    let c := after_now w.1 in
    idle_loop fuel threshold 0 (list_tail c) (c, w.2).

(** simple_lru_cache_inl.h:411-413 RemoveExpiredEntries. *)
Definition RemoveExpiredEntries (w : world) : outcome world :=
  if 0 <=? l_idle w.1 then DiscardIdle (l_idle w.1) w else Ok w.

(** simple_lru_cache_inl.h:299-302 SetMaxSize. *)
Definition SetMaxSize (total_units : Z) (w : world) : outcome world :=
  GarbageCollect (set_max total_units w.1, w.2).

(** simple_lru_cache_inl.h:593-629 SetTimeout after the conversion of the timeout: [None] is a negative or
    infinite timeout, [Some cycles] the converted one (see Timeout.v for the conversion).  The branch that
    asserts false does nothing in a release build. *)
Definition SetTimeout (cycles : option Z) (lru_flag : bool) (w : world) : outcome world :=
  match cycles with
  | None => Ok (set_idle (-1) (set_lru lru_flag w.1), w.2)
  | Some n =>
      if (0 <=? l_idle w.1) && negb (Bool.eqb lru_flag (l_lru w.1)) then Abort
      else DiscardIdle n (set_idle n (set_lru lru_flag w.1), w.2)
  end.

(** simple_lru_cache_inl.h:672-691 LookupWithOptions; [update] is options.update_eviction_order(). *)
Definition LookupWithOptions (update : bool) (k : string) (w : world) : outcome (world * option V) :=
  let! w := RemoveExpiredEntries w in
  match l_table w.1 !! k with
  | None => Ok (w, None)
  | Some id =>
      let! e := load id w.1 in
      let c := w.1 in
      let c := if e_pin e =? 0 then
                 let c := set_pinned (l_pinned c + e_units e) c in
                 if l_lru c && update then Unlink id c else c
               else c in
      let c := store id (set_pin (e_pin e + 1) e) c in
      Ok ((c, w.2), Some (e_value e))
  end.
(** simple_lru_cache_inl.h:328-330 Lookup. *)
Definition Lookup := LookupWithOptions true.

(** simple_lru_cache_inl.h:699-704 the scan of a deferred list, from head->prev backwards, ending at the head.
    [None]: not found. *)
Fixpoint scan_ids (ids : list nat) (v : V) (c : lru V) : outcome (option nat) :=
  match ids with
  | [] => Ok None
  | id :: ids' =>
      let! e := load id c in
      if decide (e_value e = v) then Ok (Some id) else scan_ids ids' v c
  end.
Definition scan_deferred (l : list nat) (v : V) (c : lru V) : outcome (option nat) :=
  match l with
  | [] => UB UninitRead
  | h :: t => scan_ids (rev t ++ [h]) v c
  end.

(** simple_lru_cache_inl.h:707-724 taking an element out of its deferred list.  When it is the head, the
    element before it (the last one along next) becomes the head. *)
Definition undefer (k : string) (l : list nat) (id : nat) (c : lru V) : lru V :=
  match l with
  | [] => c
  | h :: t =>
      if decide (id = h) then
        match rev t with
        | [] => set_defer (delete k (l_defer c)) c
        | z :: r => set_defer (<[k := z :: rev r]> (delete k (l_defer c))) c
        end
      else set_defer (<[k := h :: filter (fun x => x <> id) t]> (l_defer c)) c
  end.

(** simple_lru_cache_inl.h:729-748 the part of ReleaseWithOptions for a value that is not deferred. *)
Definition release_cached (update : bool) (k : string) (v : V) (w : world) : outcome world :=
  match l_table w.1 !! k with
  | None => Abort
  | Some id =>
      let! e := load id w.1 in
      let! _ := assert_ (bool_decide (e_value e = v)) in
      let! _ := assert_ (0 <? e_pin e) in
      let touch := l_lru w.1 && update in
      let e1 := if touch then set_last (read_now w.1) e else e in
      let c := if touch then after_now w.1 else w.1 in
      let e2 := set_pin (e_pin e1 - 1) e1 in
      let c := store id e2 c in
      if e_pin e2 =? 0 then
        let! c := (if touch then LinkFront id c else Ok c) in
        let c := set_pinned (l_pinned c - e_units e2) c in
        if Overfull c then Remove k (c, w.2) else Ok (c, w.2)
      else Ok (c, w.2)
  end.

(** simple_lru_cache_inl.h:693-749 ReleaseWithOptions. *)
Definition ReleaseWithOptions (update : bool) (k : string) (v : V) (w : world) : outcome world :=
  match l_defer w.1 !! k with
  | Some l =>
      let! found := scan_deferred l v w.1 in
      match found with
      | Some id =>
          let! e := load id w.1 in
          let! _ := assert_ (0 <? e_pin e) in
          let e := set_pin (e_pin e - 1) e in
          let c := store id e w.1 in
          if e_pin e =? 0 then Discard id (undefer k l id c, w.2) else Ok (c, w.2)
      | None => release_cached update k v w
      end
  | None => release_cached update k v w
  end.
(** simple_lru_cache_inl.h:342-344 Release. *)
Definition Release := ReleaseWithOptions true.

(** simple_lru_cache_inl.h:751-771 InsertPinned. *)
Definition InsertPinned (k : string) (v : V) (units : Z) (w : world) : outcome world :=
  let! w := Remove k w in
  let id := l_next_id w.1 in
  let e := Elem k v 1 units (read_now w.1) in
  let c := set_next (S id) (store id e (after_now w.1)) in
  let c := set_pinned (l_pinned c + units) (set_units (l_units c + units) c) in
  let c := set_table (<[k := id]> (l_table c)) c in
  let! c := (if l_lru c then Ok c else LinkFront id c) in
  GarbageCollect (c, w.2).
(** simple_lru_cache_inl.h:366-369 Insert. *)
Definition Insert (k : string) (v : V) (units : Z) (w : world) : outcome world :=
  let! w := InsertPinned k v units w in
  Release k v w.

(** simple_lru_cache_inl.h:794-802 the loop of UpdateSize over a deferred list.
    Simplification: the elements are visited in list order; the code goes backwards, with the same effect. *)
Fixpoint resize_deferred (ids : list nat) (v : option V) (units : Z) (c : lru V) : outcome (lru V) :=
  match ids with
  | [] => Ok c
  | id :: ids' =>
      let! e := load id c in
      let hit := match v with None => true | Some v => bool_decide (e_value e = v) end in
      let c := if hit then store id (set_elem_units units e) (set_units (l_units c - e_units e + units) c) else c in
      resize_deferred ids' v units c
  end.
(** simple_lru_cache_inl.h:773-806 UpdateSize; a null value is [None]. *)
Definition UpdateSize (k : string) (v : option V) (units : Z) (w : world) : outcome world :=
  let c := w.1 in
  let deferred (_ : unit) :=
    match l_defer c !! k with None => Ok c | Some l => resize_deferred l v units c end in
  let! c :=
    match l_table c !! k with
    | Some id =>
        let! e := load id c in
        if match v with None => true | Some v => bool_decide (e_value e = v) end then
          let c := set_units (l_units c - e_units e + units) c in
          let c := if 0 <? e_pin e then set_pinned (l_pinned c - e_units e + units) c else c in
          Ok (store id (set_elem_units units e) c)
        else deferred tt
    | None => deferred tt
    end in
  GarbageCollect (c, w.2).

(** simple_lru_cache_inl.h:820-833 InDeferredTable. *)
Fixpoint any_value (ids : list nat) (v : option V) (c : lru V) : outcome bool :=
  match ids with
  | [] => Ok false
  | id :: ids' =>
      let! e := load id c in
      if match v with None => true | Some v => bool_decide (e_value e = v) end then Ok true
      else any_value ids' v c
  end.
Definition InDeferredTable (k : string) (v : option V) (c : lru V) : outcome bool :=
  match l_defer c !! k with None => Ok false | Some l => any_value l v c end.
(** simple_lru_cache_inl.h:808-818 StillInUse. *)
Definition StillInUse (k : string) (v : option V) (c : lru V) : outcome bool :=
  match l_table c !! k with
  | Some id =>
      let! e := load id c in
      if match v with None => true | Some v => bool_decide (e_value e = v) end then Ok true
      else InDeferredTable k v c
  | None => InDeferredTable k v c
  end.

(** simple_lru_cache_inl.h:631-638 RemoveAll: the table still holds the removed elements until the end.
    Simplification: the table is iterated in the order it has at the start of the call. *)
Fixpoint remove_each (ids : list (string * nat)) (w : world) : outcome world :=
  match ids with
  | [] => Ok w
  | (_, id) :: ids' => let! w := RemoveElem id w in remove_each ids' w
  end.
Definition RemoveAll (w : world) : outcome world :=
  let! w := remove_each (ho_list ord (l_table w.1)) w in
  Ok (set_table ∅ w.1, w.2).

(** simple_lru_cache_inl.h:640-647 RemoveUnpinned: from the most recently used end, saving next. *)
Fixpoint next_in (id : nat) (l : list nat) : outcome (option nat) :=
  match l with
  | [] => UB UninitRead
  | x :: l' => if decide (x = id) then Ok (head l') else next_in id l'
  end.
Fixpoint unpinned_loop (n : nat) (cur : option nat) (w : world) : outcome world :=
  match n with
  | O => OutOfFuel
  | S n' =>
      match cur with
      | None => Ok w
      | Some id =>
          let! e := load id w.1 in
          let! next := next_in id (l_list w.1) in
          let! w' := (if e_pin e =? 0 then Remove (e_key e) w else Ok w) in
          unpinned_loop n' next w'
      end
  end.
Definition RemoveUnpinned (w : world) : outcome world := unpinned_loop fuel (head (l_list w.1)) w.

(** simple_lru_cache_inl.h:649-670 Clear. *)
Fixpoint discard_each (ids : list (string * nat)) (w : world) : outcome world :=
  match ids with
  | [] => Ok w
  | (_, id) :: ids' => let! w := Discard id w in discard_each ids' w
  end.
Definition Clear (w : world) : outcome world :=
  let! w := discard_each (ho_list ord (l_table w.1)) w in
  let! _ := assert_ (bool_decide (l_defer w.1 = ∅)) in
  Ok (set_pinned 0 (set_units 0 (set_list [] (set_table ∅ w.1))), w.2).

(** simple_lru_cache_inl.h:416-429, 931-959 the size observers. *)
Definition Size (c : lru V) : Z := l_units c.
Definition Entries (c : lru V) : Z := Z.of_nat (size (l_table c)).
Definition PinnedSize (c : lru V) : Z := l_pinned c.
Definition deferred_ids (c : lru V) : list nat := map_to_list (l_defer c) ≫= snd.
Fixpoint sum_units (ids : list nat) (c : lru V) : outcome Z :=
  match ids with
  | [] => Ok 0
  | id :: ids' => let! e := load id c in let! s := sum_units ids' c in Ok (e_units e + s)
  end.
Definition DeferredEntries (c : lru V) : Z := Z.of_nat (length (deferred_ids c)).
Definition DeferredSize (c : lru V) : outcome Z := sum_units (deferred_ids c) c.

(** simple_lru_cache_inl.h:969-989 GetLastUseTime / GetInsertionTime (one per mode). *)
Definition GetLastUseTime (k : string) (c : lru V) : outcome Z :=
  match l_table c !! k with None => Ok (-1) | Some id => let! e := load id c in Ok (e_last e) end.

(** simple_lru_cache_inl.h:961-967 AgeOfLRUItemInMicroseconds (Frequency() is kSecToUsec). *)
Definition AgeOfLRUItem (c : lru V) : outcome Z :=
  match list_tail c with
  | None => Ok 0
  | Some id => let! e := load id c in Ok (read_now c - e_last e)
  end.

(** simple_lru_cache_inl.h:292-295 the destructor's assertions. *)
Definition DestroyCache (c : lru V) : outcome unit :=
  let! _ := assert_ (bool_decide (l_table c = ∅)) in
  assert_ (bool_decide (l_defer c = ∅)).
End cache.
