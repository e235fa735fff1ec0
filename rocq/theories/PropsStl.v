(** C97 and C98: the helpers for containers. *)
From Verif Require Import Base StlUtil StlUtilSpec StlUtilProofs.
From stdpp Require Import gmap list.
Local Open Scope Z_scope.

(** The range helpers, for every heap and range, whether or not the iterators read the objects that they leave: when the pointers other than
    NULL designate distinct objects that are there, exactly these are deleted; otherwise the behaviour is undefined. *)
Theorem C97_range : forall (E : Type) (h : heap E),
  (forall reads l, deletes (pointees l) h (STLDeleteContainerPointers reads h l)) /\
  (forall reads l, deletes (pointees (concat ((fun x => [x.1; x.2]) <$> l))) h (STLDeleteContainerPairPointers reads h l)) /\
  (forall V reads (l : list (ptr * V)), deletes (pointees l.*1) h (STLDeleteContainerPairFirstPointers reads h l)) /\
  (forall K (l : list (K * ptr)), deletes (pointees l.*2) h (STLDeleteContainerPairSecondPointers h l)).
Proof. intros *. apply range_deletes. Qed.
Print Assumptions C97_range.

(** The container helpers do nothing for NULL; otherwise they delete the objects in the same way and leave the container empty. *)
Theorem C97_container : forall (E : Type) (h : heap E),
  (forall reads, STLDeleteElements reads h None = Ok (h, None)) /\ (forall K, STLDeleteValues (K := K) h None = Ok (h, None)) /\
  (forall reads l, exists r, deletes (pointees l) h r /\ STLDeleteElements reads h (Some l) = let! h' := r in Ok (h', Some [])) /\
  (forall K (l : list (K * ptr)), exists r, deletes (pointees l.*2) h r /\ STLDeleteValues h (Some l) = let! h' := r in Ok (h', Some [])).
Proof. intros *. apply container_deletes. Qed.
Print Assumptions C97_container.

(** Any number of LookupOrInsertNew calls on an empty map and then STLDeleteValues, whatever the order of the map: all the objects that were
    made are deleted, once each, and no others. *)
Theorem C97_no_leak : forall (K : Type) `(Countable K) (E : Type) (h : heap E) (ks : list (K * E)) h' m ps l, sound_heap h ->
  lookup_run h ∅ ks = (h', m, ps) -> l ≡ₚ map_to_list m -> exists h2, STLDeleteValues h' (Some l) = Ok (h2, Some []) /\ hp_objects h2 = hp_objects h.
Proof. intros *. apply lookups_deleted. Qed.
Print Assumptions C97_no_leak.

(** Three objects, a NULL pointer, and an iterator that reads: two are deleted and one stays.  A pointer that is there twice is undefined. *)
Definition stl_heap : heap Z := Heap {[1%nat := 10; 2%nat := 20; 3%nat := 30]} 4.
Example C97_example : owned stl_heap (pointees [Some 1%nat; None; Some 3%nat]) /\
  (exists h, STLDeleteElements true stl_heap (Some [Some 1%nat; None; Some 3%nat]) = Ok (h, Some []) /\ map_to_list (hp_objects h) = [(2%nat, 20)]) /\
  STLDeleteElements false stl_heap (Some [Some 1%nat; Some 1%nat]) = UB UseAfterFree /\ sound_heap stl_heap /\
  (exists h m, lookup_run stl_heap ∅ [(7, 70); (8, 80); (7, 90)] = (h, m, [Some 4%nat; Some 5%nat; Some 4%nat]) /\
     hp_objects h !! 4%nat = Some 70 /\ size m = 2%nat).
Proof.
  split. { cbn. split. { repeat constructor; set_solver. } intros a Ha. repeat (apply elem_of_cons in Ha as [->|Ha]; [vm_compute; by eauto|]). by apply elem_of_nil in Ha. }
  split. { eexists. split; vm_compute; reflexivity. } split; [vm_compute; reflexivity|].
  split. { intros a Ha. cbn in *. rewrite !lookup_insert_ne by lia. apply lookup_singleton_ne. lia. }
  eexists _, _. split; [vm_compute; reflexivity|]. split; vm_compute; reflexivity.
Qed.

(** Every history of the helpers on a map that is empty at first: each answer is the right one for the calls before, and the map has for each
    key the value of the last update, or, when there was none since, of the first call that offered one. *)
Theorem C98_map : forall (K : Type) `(Countable K) (V : Type) (cs : list (map_call K V)) m answers, map_run ∅ cs = (m, answers) ->
  length answers = length cs /\ (forall k v, m !! k = Some v <-> holds cs k v) /\
  forall i c a, cs !! i = Some c -> answers !! i = Some a -> right_answer (take i cs) c a.
Proof. intros * E. pose proof (map_run_length ∅ cs) as El. pose proof (map_state cs) as Es. pose proof (map_answers cs) as Ea. rewrite E in El, Es, Ea. split; [exact El|]. split; [apply Es|exact Ea]. Qed.
Print Assumptions C98_map.

(** Every history of LookupOrInsertNew: it never returns NULL, two calls return the same pointer exactly when they have the same key, and the
    first call for a key returns a new object that has the value it gave and still has it at the end. *)
Theorem C98_lookup : forall (K : Type) `(Countable K) (E : Type) (h : heap E) (ks : list (K * E)) h' m ps, sound_heap h -> lookup_run h ∅ ks = (h', m, ps) ->
  length ps = length ks /\
  (forall i j k k' e e' p p', ks !! i = Some (k, e) -> ks !! j = Some (k', e') -> ps !! i = Some p -> ps !! j = Some p' -> p <> None /\ (p = p' <-> k = k')) /\
  (forall i k e, ks !! i = Some (k, e) -> (forall j x, (j < i)%nat -> ks !! j = Some x -> x.1 <> k) ->
     exists a, ps !! i = Some (Some a) /\ hp_objects h !! a = None /\ hp_objects h' !! a = Some e).
Proof. intros *. apply lookups_found. Qed.
Print Assumptions C98_lookup.

(** FindPtrOrNull returns NULL both for a key that is not there and for one whose pointer is NULL, and otherwise the pointer; LookupOrInsertNew
    leaves a NULL pointer that is there already as it is, so on a map that was filled otherwise it can return NULL. *)
Theorem C98_null : forall (K : Type) `(Countable K) (m : gmap K ptr) k,
  (forall a, FindPtrOrNull m k = Some a <-> m !! k = Some (Some a)) /\ (FindPtrOrNull m k = None <-> m !! k = None \/ m !! k = Some None) /\
  forall E (h : heap E) e, (LookupOrInsertNew h m k e).2 = None <-> m !! k = Some None.
Proof. intros *. apply lookup_null. Qed.
Print Assumptions C98_null.

Definition stl_calls : list (map_call Z Z) := [CIfAbsent 1 10; COrExisting 1 11; COrUpdate 1 12; CFind 1; CDefault 2 20; COrExisting 2 21; CIfAbsent 2 22; CFind 2].
Example C98_example : (map_run ∅ stl_calls).2 = [ABool true; APointer (Some 10); ABool false; APointer (Some 12); AValue 20; APointer None; ABool false; APointer (Some 21)] /\
  holds stl_calls 1 12 /\ FindPtrOrNull {[1 := None]} 1 = None.
Proof.
  split; [vm_compute; reflexivity|]. split; [|reflexivity].
  exists [CIfAbsent 1 10; COrExisting 1 11], (COrUpdate 1 12), [CFind 1; CDefault 2 20; COrExisting 2 21; CIfAbsent 2 22; CFind 2].
  split; [reflexivity|]. split; [right; left; reflexivity|]. split; [left; reflexivity|]. intros w Hw. repeat (apply elem_of_cons in Hw as [Hw|Hw]; [discriminate|]). by apply elem_of_nil in Hw.
Qed.
