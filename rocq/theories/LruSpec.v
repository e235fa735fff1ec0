(** What a user of the cache sees: operations, events and the user's own books.

    Nothing here looks inside the cache.  A run of the cache is a list of events; an event records the call, what
    it returned, which values were handed to the deleter during the call (in order) and how often the clock had
    been read before and after it.  [observe] is the bookkeeping the user could do from the events alone. *)
From stdpp Require Import gmap.
From Verif Require Import Base Proto Lru.
Local Open Scope Z_scope.

(** The public operations with the default options.
    [OUpdateSize] names the value; [OSetTimeout] keeps the mode chosen at the start. *)
Inductive op (V : Type) :=
| OInsert (k : string) (v : V) (units : Z)
| OInsertPinned (k : string) (v : V) (units : Z)
| OLookup (k : string)
| ORelease (k : string) (v : V)
| ORemove (k : string)
| ORemoveAll
| ORemoveUnpinned
| OClear
| ORemoveExpired
| OSetMaxSize (n : Z)
| OUpdateSize (k : string) (v : V) (units : Z)
| OSetTimeout (cycles : option Z).
Arguments OInsert {V}. Arguments OInsertPinned {V}. Arguments OLookup {V}. Arguments ORelease {V}.
Arguments ORemove {V}. Arguments ORemoveAll {V}. Arguments ORemoveUnpinned {V}. Arguments OClear {V}.
Arguments ORemoveExpired {V}. Arguments OSetMaxSize {V}. Arguments OUpdateSize {V}. Arguments OSetTimeout {V}.

Record event (V : Type) := Event {
  ev_op : op V; ev_ret : option V; ev_destroyed : list (string * V); ev_from : nat; ev_to : nat }.
Arguments Event {V}. Arguments ev_op {V}. Arguments ev_ret {V}. Arguments ev_destroyed {V}. Arguments ev_from {V}. Arguments ev_to {V}.

(** The user's books. *)
Record books (V : Type) := Books {
  b_alive : list (string * V * Z);     (* inserted and not destroyed, with the size last given *)
  b_held : list (string * V);          (* one entry per lookup or pinned insert not yet released *)
  b_cached : list (string * V);        (* what lookups should find *)
  b_recent : list (string * V * Z);    (* most recently used first, with the time of that use *)
  b_max : Z; b_idle : Z }.
Arguments Books {V}. Arguments b_alive {V}. Arguments b_held {V}. Arguments b_cached {V}. Arguments b_recent {V}. Arguments b_max {V}. Arguments b_idle {V}.

Section spec.
Context {V : Type} `{!EqDecision V}.
Variable clk : nat -> Z.
Variable ord : hash_order.

(** A deleter that writes down what it is given. *)
Definition recorder (k : string) (v : V) (w : world (V:=V) (U:=list (string * V))) : outcome (world (V:=V) (U:=list (string * V))) :=
  Ok (w.1, w.2 ++ [(k, v)]).

(** One call.  The bound on the model's loops is the number of elements ever made plus two. *)
Definition step (o : op V) (c : lru V) : outcome (lru V * option V * list (string * V)) :=
  let fuel := (2 + l_next_id c)%nat in
  let plain (r : outcome (world (V:=V) (U:=list (string * V)))) := let! w := r in Ok (w.1, None, w.2) in
  match o with
  | OInsert k v u => plain (Insert recorder clk fuel k v u (c, []))
  | OInsertPinned k v u => plain (InsertPinned recorder clk fuel k v u (c, []))
  | OLookup k => let! wr := Lookup recorder clk fuel k (c, []) in Ok (wr.1.1, wr.2, wr.1.2)
  | ORelease k v => plain (Release recorder clk k v (c, []))
  | ORemove k => plain (Remove recorder k (c, []))
  | ORemoveAll => plain (RemoveAll recorder ord (c, []))
  | ORemoveUnpinned => plain (RemoveUnpinned recorder fuel (c, []))
  | OClear => plain (Clear recorder ord (c, []))
  | ORemoveExpired => plain (RemoveExpiredEntries recorder clk fuel (c, []))
  | OSetMaxSize n => plain (SetMaxSize recorder fuel n (c, []))
  | OUpdateSize k v u => plain (UpdateSize recorder fuel k (Some v) u (c, []))
  | OSetTimeout t => plain (SetTimeout recorder clk fuel t (l_lru c) (c, []))
  end.

(** ** The books *)
Fixpoint drop_one (x : string * V) (l : list (string * V)) : list (string * V) :=
  match l with
  | [] => []
  | y :: l' => if decide (y = x) then l' else y :: drop_one x l'
  end.

Definition inserted_by (o : op V) : option (string * V * Z) :=
  match o with OInsert k v u | OInsertPinned k v u => Some (k, v, u) | _ => None end.
(** The entry a call counts as a use of: its insertion and, in LRU mode, each release. *)
Definition used_by (lru_mode : bool) (o : op V) : option (string * V) :=
  match o with
  | OInsert k v _ | OInsertPinned k v _ => Some (k, v)
  | ORelease k v => if lru_mode then Some (k, v) else None
  | _ => None
  end.
Fixpoint use_time (x : string * V) (l : list (string * V * Z)) : option Z :=
  match l with
  | [] => None
  | (y, t) :: l' => if decide (y = x) then Some t else use_time x l'
  end.
Definition last_use (x : string * V) (b : books V) : option Z := use_time x (b_recent b).
(** The calls that drop overdue entries, and the limit then in force. *)
Definition expires (o : op V) : bool :=
  match o with OLookup _ | ORemoveExpired | OSetTimeout _ => true | _ => false end.
Definition limit_after (o : op V) (b : books V) : Z :=
  match o with OSetTimeout (Some n) => n | OSetTimeout None => -1 | _ => b_idle b end.
(** An entry is overdue when its last use is more than the limit before now; a negative limit means none. *)
Definition overdue (now limit : Z) (b : books V) (x : string * V) : bool :=
  (0 <=? limit) && match last_use x b with Some t => t <? now - limit | None => false end.

(** What is alive once a call has taken what it is given, before it destroys anything. *)
Definition ledger (o : op V) (b : books V) : list (string * V * Z) :=
  match o with
  | OInsert k v u | OInsertPinned k v u => (k, v, u) :: b_alive b
  | OUpdateSize k v u => (fun y => if decide (y.1 = (k, v)) then (k, v, u) else y) <$> b_alive b
  | _ => b_alive b
  end.

Definition observe (lru_mode : bool) (b : books V) (ev : event V) : books V :=
  let o := ev_op ev in
  let gone (x : string * V) : Prop := x ∈ ev_destroyed ev in
  let held :=
    match o with
    | OInsertPinned k v _ => (k, v) :: b_held b
    | OLookup k => match ev_ret ev with Some v => (k, v) :: b_held b | None => b_held b end
    | ORelease k v => drop_one (k, v) (b_held b)
    | _ => b_held b
    end in
  (* in age mode the overdue entries leave the cache even when they are in use *)
  let fresh :=
    if expires o && negb lru_mode then
      filter (fun x => overdue (clk (ev_from ev)) (limit_after o b) b x = false) (b_cached b)
    else b_cached b in
  let cached :=
    match o with
    | OInsert k v _ | OInsertPinned k v _ => (k, v) :: filter (fun x => x.1 <> k) fresh
    | ORemove k => filter (fun x => x.1 <> k) fresh
    | ORemoveAll | OClear => []
    | _ => fresh
    end in
  let recent :=
    match used_by lru_mode o with
    | Some x => (x, clk (pred (ev_to ev))) :: filter (fun y => y.1 <> x) (b_recent b)
    | None => b_recent b
    end in
  {| b_alive := filter (fun y => ~ gone y.1) (ledger o b);
     b_held := held;
     b_cached := filter (fun x => ~ gone x) cached;
     b_recent := recent;
     b_max := match o with OSetMaxSize n => n | _ => b_max b end;
     b_idle := limit_after o b |}.

(** ** Runs *)
Record config := { cf_max : Z; cf_timeout : option Z; cf_lru : bool }.
Definition timeout_limit (o : option Z) : Z := match o with Some n => n | None => -1 end.
(** The user's books over a history. *)
Definition books_of (cf : config) (h : list (event V)) : books V :=
  foldl (observe (cf_lru cf)) (Books [] [] [] [] (cf_max cf) (timeout_limit (cf_timeout cf))) h.

(** The documented protocol: a value may be inserted when the cache does not already own it, sizes are not
    negative, only what is held is released, and Clear needs everything released.  Timeouts are not negative once
    converted ([None] stands for a negative one). *)
Definition legal (b : books V) (o : op V) : Prop :=
  match o with
  | OInsert k v u | OInsertPinned k v u => v ∉ (b_alive b).*1.*2 /\ 0 <= u
  | ORelease k v => (k, v) ∈ b_held b
  | OClear => b_held b = []
  | OUpdateSize _ _ u => 0 <= u
  | OSetTimeout (Some n) => 0 <= n
  | _ => True
  end.

(** The states reached by legal calls on a new cache, with their histories. *)
Inductive reach (cf : config) : lru V -> list (event V) -> Prop :=
| reach_new c0 x :
    (forall n, cf_timeout cf = Some n -> 0 <= n) ->
    SetTimeout recorder clk 2 (cf_timeout cf) (cf_lru cf) (NewCache (cf_max cf), []) = Ok (c0, x) ->
    reach cf c0 []
| reach_step c h o c' r x :
    reach cf c h -> legal (books_of cf h) o -> step o c = Ok (c', r, x) ->
    reach cf c' (h ++ [Event o r x (l_tick c) (l_tick c')]).

(** The clock never runs backwards and is not negative (microseconds since the epoch). *)
Definition proper_clock : Prop := (forall i j, (i <= j)%nat -> clk i <= clk j) /\ forall i, 0 <= clk i.

(** What Lookup would return if nothing expired. *)
Definition peek (c : lru V) (k : string) : option V :=
  match Lookup recorder clk 2 k (set_idle (-1) c, []) with Ok wr => wr.2 | _ => None end.
(** Everything handed to the cache, and everything handed to the deleter. *)
Definition inserted (h : list (event V)) : list (string * V) :=
  h ≫= fun ev => match inserted_by (ev_op ev) with Some y => [y.1] | None => [] end.
Definition destroyed (h : list (event V)) : list (string * V) := h ≫= ev_destroyed.
(** The value last inserted under a key. *)
Definition latest (k : string) (h : list (event V)) : option V := snd <$> last (filter (fun x => x.1 = k) (inserted h)).
Definition size_of_all (l : list (string * V * Z)) : Z := sum_Z (snd <$> l).

(** Calls that may destroy entries only to make room, and the entries they destroy for another reason: what an
    insertion replaces, and a released value that had already left the cache. *)
Definition makes_room (o : op V) : bool :=
  match o with OInsert _ _ _ | OInsertPinned _ _ _ | OSetMaxSize _ | OUpdateSize _ _ _ | ORelease _ _ => true | _ => false end.
Definition other_reason (o : op V) (b : books V) (x : string * V) : Prop :=
  match o with
  | OInsert k v _ | OInsertPinned k v _ => x.1 = k /\ x.2 <> v
  | ORelease _ _ => x ∉ b_cached b
  | _ => False
  end.
(** [x] was used more recently than [y]. *)
Definition more_recent (x y : string * V) (b : books V) : Prop :=
  exists l1 t l2 u l3, b_recent b = l1 ++ (x, t) :: l2 ++ (y, u) :: l3.
(** The ways a call takes an entry out of the cache. *)
Definition takes_out (lru_mode : bool) (b : books V) (ev : event V) (x : string * V) : Prop :=
  x ∈ ev_destroyed ev \/
  match ev_op ev with
  | OInsert k _ _ | OInsertPinned k _ _ | ORemove k => x.1 = k
  | ORemoveAll | OClear => True
  | OLookup _ | ORemoveExpired | OSetTimeout _ =>
      lru_mode = false /\ overdue (clk (ev_from ev)) (limit_after (ev_op ev) b) b x = true
  | _ => False
  end.
End spec.
Arguments config : clear implicits.
