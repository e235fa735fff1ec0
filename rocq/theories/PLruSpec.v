(** What a user of the pointer-level cache sees: the same calls and events as in LruSpec.v. *)
From stdpp Require Import gmap.
From Verif Require Import Base Proto Lru LruSpec LinkedList PLru.
Local Open Scope Z_scope.

Section spec.
Context {V : Type} `{!EqDecision V}.
Variable clk : nat -> Z.
Variable ord : hash_order.

(** The deleter that writes down what it is given (as [recorder] in LruSpec.v). *)
Definition p_note (k : string) (v : V) (w : pworld (V:=V) (U:=list (string * V))) : outcome (pworld (V:=V) (U:=list (string * V))) :=
  Ok (w.1, w.2 ++ [(k, v)]).

(** One call on the pointer-level cache. *)
Definition pcstep (o : op V) (p : plru V) : outcome (plru V * option V * list (string * V)) :=
  let fuel := (2 + p_next p)%nat in
  let plain (r : outcome (pworld (V:=V) (U:=list (string * V)))) := let! w := r in Ok (w.1, None, w.2) in
  match o with
  | OInsert k v u => plain (PInsert p_note clk fuel k v u (p, []))
  | OInsertPinned k v u => plain (PInsertPinned p_note clk fuel k v u (p, []))
  | OLookup k => let! wr := PLookup p_note clk fuel true k (p, []) in Ok (wr.1.1, wr.2, wr.1.2)
  | ORelease k v => plain (PRelease p_note clk true k v (p, []))
  | ORemove k => plain (PRemove p_note k (p, []))
  | ORemoveAll => plain (PRemoveAll p_note ord (p, []))
  | ORemoveUnpinned => plain (PRemoveUnpinned p_note fuel (p, []))
  | OClear => plain (PClear p_note ord (p, []))
  | ORemoveExpired => plain (PRemoveExpired p_note clk fuel (p, []))
  | OSetMaxSize n => plain (PSetMaxSize p_note fuel n (p, []))
  | OUpdateSize k v u => plain (PUpdateSize p_note fuel k (Some v) u (p, []))
  | OSetTimeout t => plain (PSetTimeout p_note clk fuel t (p_lru p) (p, []))
  end.

(** The pointer-level caches reached by legal calls on a new one, with their histories. *)
Inductive preach (cf : config) : plru V -> list (event V) -> Prop :=
| preach_new p0 p1 x :
    (forall n, cf_timeout cf = Some n -> 0 <= n) ->
    PNewCache (cf_max cf) = Ok p0 ->
    PSetTimeout p_note clk 2 (cf_timeout cf) (cf_lru cf) (p0, []) = Ok (p1, x) ->
    preach cf p1 []
| preach_step p h o p' r x :
    preach cf p h -> legal (books_of clk cf h) o -> pcstep o p = Ok (p', r, x) ->
    preach cf p' (h ++ [Event o r x (p_tick p) (p_tick p')]).

(** The entry stored in element [n]. *)
Definition entry (p : plru V) (n : nat) : option (string * V) := (fun e => (e_key e, e_value e)) <$> p_heap p !! n.
(** The entries the cache may drop to make room, most recently used first: what it holds, except that in LRU mode an
    entry in use is not among them. *)
Definition evictable (lru_mode : bool) (b : books V) : list (string * V) :=
  filter (fun x => x ∈ b_cached b /\ (lru_mode = true -> x ∉ b_held b)) (b_recent b).*1.
(** The values of a key that have left the cache but are still in use. *)
Definition left_behind (k : string) (b : books V) : list (string * V) :=
  filter (fun x => x.1 = k /\ x ∉ b_cached b) (b_alive b).*1.
End spec.
