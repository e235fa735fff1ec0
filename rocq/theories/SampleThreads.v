(** Model of the threads and the memory of the sample transport (sample/transport/http_transport.h and
    http_transport.cc): each call starts a detached thread that uses the transport object, libcurl, and objects on the
    heap.  What the thread computes is in Sample.v; here is when it touches what.

    Simplifications: std::thread is the possibility to run; a step of a thread is one of the statements that touch
    something other threads or the user can reach; thread creation and memory allocation do not fail; there is one
    transport; libcurl is its contract: no call after curl_global_cleanup, CURLOPT_POSTFIELDS is not copied, other
    strings are, and the header list must live until the transfer is over. *)
From Verif Require Import Base Proto Signature Sample.
From Coq Require Import Ascii.
From stdpp Require Import gmap list.
Local Open Scope Z_scope.

(** An address: no two of the objects made for different calls, or for different purposes of one call, share one, and
    none is used again. *)
Notation addr := (nat * nat)%type.
Definition at_body (n : nat) : addr := (n, 0%nat).
Definition at_handle (n : nat) : addr := (n, 1%nat).
Definition at_response (n : nat) : addr := (n, 2%nat).
Definition at_header (n i : nat) : addr := (n, (3 + i)%nat).

(** The requests of the two methods of the transport. *)
Inductive sample_request := SqCheck (q : check_request) | SqReport (q : report_request).
Definition is_check (q : sample_request) : bool := match q with SqCheck _ => true | SqReport _ => false end.

Section threads.
Context {R : Type}.

(** What is on the heap: strings (the serialised request and the nodes of the header list), CURL handles with the
    options set, responses. *)
Inductive obj := OString (s : string) | OHandle (url : option string) (headers : list addr) (body : option addr) | OResponse (r : R).

(** Where a thread is, with its local variables. *)
Inductive pc :=
| AtInit
| AtUrl (curl : addr)
| AtList (curl : addr)
| AtAuth (curl : addr) (list : list addr)
| AtOptions (curl : addr) (list : list addr)
| AtPerform (curl : addr)
| AtCleanup (curl : addr) (status : status_code) (response_body : string)
| AtFree (status : status_code) (response_body : string)
| AtParse (status : status_code) (response_body : string)
| AtDone (status : status_code)
| AtEnd.
(** sample/transport/http_transport.cc:142, 169 what the thread's function captures; [t_check] tells which of the two
    it is. *)
Record thread := Thread { t_check : bool; t_body : addr; t_response : addr; t_pc : pc }.

(** The transport object, [None] once deleted; whether libcurl is initialised; the heap; the threads by the number of
    the call; the calls of on_done so far, with the status and the response as it is then; what was posted so far, and
    by which thread. *)
Record sworld := SWorld {
  s_transport : option curl_transport; s_curl : bool; s_heap : gmap addr obj; s_threads : list thread;
  s_done : list (nat * status_code * R); s_posts : list (nat * http_post) }.
Definition s_set_heap (m : gmap addr obj) (s : sworld) : sworld := SWorld (s_transport s) (s_curl s) m (s_threads s) (s_done s) (s_posts s).
Definition s_goto (n : nat) (p : pc) (s : sworld) : sworld :=
  SWorld (s_transport s) (s_curl s) (s_heap s) (alter (fun th => Thread (t_check th) (t_body th) (t_response th) p) n (s_threads s)) (s_done s) (s_posts s).
Definition s_post (n : nat) (p : http_post) (s : sworld) : sworld :=
  SWorld (s_transport s) (s_curl s) (s_heap s) (s_threads s) (s_done s) (s_posts s ++ [(n, p)]).

(** Access to the transport's fields, to libcurl, and through a pointer. *)
Definition this (s : sworld) : outcome curl_transport := match s_transport s with Some t => Ok t | None => UB UseAfterFree end.
Definition curl_ready (s : sworld) : outcome unit := if s_curl s then Ok tt else UB UseAfterFree.
Definition load_string (a : addr) (s : sworld) : outcome string :=
  match s_heap s !! a with Some (OString x) => Ok x | Some _ => UB UninitRead | None => UB UseAfterFree end.
Definition load_handle (a : addr) (s : sworld) : outcome (option string * list addr * option addr) :=
  match s_heap s !! a with Some (OHandle u l b) => Ok (u, l, b) | Some _ => UB UninitRead | None => UB UseAfterFree end.
Definition load_response (a : addr) (s : sworld) : outcome R :=
  match s_heap s !! a with Some (OResponse r) => Ok r | Some _ => UB UninitRead | None => UB UseAfterFree end.
Definition store (a : addr) (o : obj) (s : sworld) : sworld := s_set_heap (<[a := o]> (s_heap s)) s.
Definition free (a : addr) (s : sworld) : outcome sworld :=
  match s_heap s !! a with Some _ => Ok (s_set_heap (delete a (s_heap s)) s) | None => UB UseAfterFree end.

(** What libcurl does with the post of the n-th call; serialisation and parsing. *)
Variable network : nat -> http_post -> http_answer.
Variable serialize : sample_request -> string.
Variable parse : bool -> string -> option R.
Variable left_over : string -> R -> R.

(** http_transport.cc:97-101 curl_slist_append: makes a node with a copy of the string. *)
Definition slist_append (n : nat) (l : list addr) (x : string) (s : sworld) : list addr * sworld :=
  let a := at_header n (length l) in (l ++ [a], store a (OString (c_string x)) s).

Fixpoint load_all (l : list addr) (s : sworld) : outcome (list string) :=
  match l with [] => Ok [] | a :: l => let! x := load_string a s in let! xs := load_all l s in Ok (x :: xs) end.

(** http_transport.cc:120 curl_easy_perform: reads the options, the header list and the body. *)
Definition curl_perform (n : nat) (curl : addr) (s : sworld) : outcome (http_answer * sworld) :=
  let! h := load_handle curl s in
  match h with
  | (Some url, l, Some b) =>
      let! headers := load_all l s in
      let! body := load_string b s in
      let p := HttpPost url headers (c_string body) in Ok (network n p, s_post n p s)
  | _ => UB UninitRead
  end.

(** One step of the n-th thread, which is at [t_pc th]. *)
Definition thread_step (n : nat) (th : thread) (s : sworld) : outcome sworld :=
  match t_pc th with
  | AtInit => (* 94 *)
      let! _ := curl_ready s in Ok (s_goto n (AtUrl (at_handle n)) (store (at_handle n) (OHandle None [] None) s))
  | AtUrl c => (* 95; the argument is this->check_url_ (144) or this->report_url_ (171) *)
      let! _ := curl_ready s in
      let! t := this s in
      let! h := load_handle c s in
      Ok (s_goto n (AtList c) (store c (OHandle (Some (c_string (if t_check th then lt_check_url t else lt_report_url t))) h.1.2 h.2) s))
  | AtList c => (* 97-99 *)
      let! _ := curl_ready s in
      let '(l, s) := slist_append n [] "Content-Type: application/x-protobuf" s in
      let '(l, s) := slist_append n l "X-GFE-SSL: yes" s in
      Ok (s_goto n (AtAuth c l) s)
  | AtAuth c l => (* 101; the argument is this->auth_token_header_ *)
      let! _ := curl_ready s in
      let! t := this s in
      let '(l, s) := slist_append n l (lt_auth t) s in
      Ok (s_goto n (AtOptions c l) s)
  | AtOptions c l => (* 102-118 *)
      let! _ := curl_ready s in
      let! h := load_handle c s in
      Ok (s_goto n (AtPerform c) (store c (OHandle h.1.1 l (Some (t_body th))) s))
  | AtPerform c => (* 120-127; the status of 126 is lost *)
      let! _ := curl_ready s in
      let! x := curl_perform n c s in
      let '(a, s) := x in
      Ok (s_goto n (AtCleanup c SOk (foldl ResultBodyCallback EmptyString (ha_parts a))) s)
  | AtCleanup c st rb => (* 129; the header list is not freed *)
      let! _ := curl_ready s in
      let! s := free c s in
      Ok (s_goto n (AtFree st rb) s)
  | AtFree st rb => (* 146, 173 *)
      let! s := free (t_body th) s in Ok (s_goto n (AtParse st rb) s)
  | AtParse st rb => (* 147-155, 174-182 *)
      if status_eqb st SOk then
        let! r := load_response (t_response th) s in
        match parse (t_check th) rb with
        | Some r' => Ok (s_goto n (AtDone st) (store (t_response th) (OResponse r') s))
        | None => Ok (s_goto n (AtDone SInvalidArgument) (store (t_response th) (OResponse (left_over rb r)) s))
        end
      else Ok (s_goto n (AtDone st) s)
  | AtDone st => (* 156, 183: on_done may delete the response *)
      let! r := load_response (t_response th) s in
      let! s := free (t_response th) s in
      let s := s_goto n AtEnd s in
      Ok (SWorld (s_transport s) (s_curl s) (s_heap s) (s_threads s) (s_done s ++ [(n, st, r)]) (s_posts s))
  | AtEnd => Ok s
  end.

(** What can happen: the user calls Check or Report, with a response object it owns; the user deletes the transport; a
    thread goes on. *)
Inductive sact := ACall (q : sample_request) (r0 : R) | ADelete | AStep (n : nat).
Definition sample_step (a : sact) (s : sworld) : outcome sworld :=
  match a with
  | ACall q r0 => (* 139-159, 166-185; the request is only read before the method returns *)
      let! _ := this s in
      let n := length (s_threads s) in
      let s := store (at_response n) (OResponse r0) s in
      let s := store (at_body n) (OString (serialize q)) s in
      Ok (SWorld (s_transport s) (s_curl s) (s_heap s)
            (s_threads s ++ [Thread (is_check q) (at_body n) (at_response n) AtInit]) (s_done s) (s_posts s))
  | ADelete => (* http_transport.h:50 *)
      let! _ := this s in Ok (SWorld None false (s_heap s) (s_threads s) (s_done s) (s_posts s))
  | AStep n => match s_threads s !! n with Some th => thread_step n th s | None => Ok s end
  end.
Fixpoint sample_run (l : list sact) (s : sworld) : outcome sworld :=
  match l with [] => Ok s | a :: l => let! s := sample_step a s in sample_run l s end.
(** http_transport.h:40-48 the constructor; nothing has been called. *)
Definition sample_start (t : curl_transport) : sworld := SWorld (Some t) true ∅ [] [] [].

(** ** Specification *)
(** The calls that were made, in order, and the numbers of those whose on_done was called. *)
Definition made (l : list sact) : list (sample_request * R) := l ≫= fun a => match a with ACall q r0 => [(q, r0)] | _ => [] end.
Definition answered_calls (s : sworld) : list nat := (fun d => d.1.1) <$> s_done s.
(** The transport is deleted at most once, when on_done has been called for every call, and there are no calls after. *)
Definition deleted_when_answered (t : curl_transport) (l : list sact) : Prop :=
  forall l1 l2, l = l1 ++ ADelete :: l2 ->
  Forall (fun a => exists n, a = AStep n) l2 /\
  forall s n, sample_run l1 (sample_start t) = Ok s -> (n < length (made l1))%nat -> n ∈ answered_calls s.
(** How often the n-th thread was given the processor. *)
Definition turns (n : nat) (l : list sact) : nat := length (l ≫= fun a => match a with AStep m => if decide (m = n) then [tt] else [] | _ => [] end).

(** What call [n] gives to on_done: the function of Sample.v, that does not mention threads. *)
Definition answer_to (t : curl_transport) (n : nat) (q : sample_request) (r0 : R) : status_code * R :=
  sample_call (network n) (parse (is_check q)) left_over (if is_check q then lt_check_url t else lt_report_url t) (lt_auth t) (serialize q) r0.

(** ** Proofs *)
Section proofs.
Variable t : curl_transport.

Definition url_of (q : sample_request) : string := if is_check q then lt_check_url t else lt_report_url t.
Definition body_to (n : nat) (q : sample_request) : string :=
  foldl ResultBodyCallback EmptyString (ha_parts (network n (post_of (url_of q) (lt_auth t) (serialize q)))).
Definition two (n : nat) : list addr := [at_header n 0; at_header n 1].
Definition three (n : nat) : list addr := [at_header n 0; at_header n 1; at_header n 2].

Definition post_for (n : nat) (q : sample_request) : http_post := post_of (url_of q) (lt_auth t) (serialize q).
(** What the local variables of a thread are, and what there is on the heap, by where the thread is. *)
Definition pc_ok (n : nat) (q : sample_request) (r0 : R) (p : pc) : Prop :=
  match p with
  | AtInit | AtEnd => True
  | AtUrl c | AtList c | AtPerform c => c = at_handle n
  | AtAuth c l => c = at_handle n /\ l = two n
  | AtOptions c l => c = at_handle n /\ l = three n
  | AtCleanup c st rb => c = at_handle n /\ st = SOk /\ rb = body_to n q
  | AtFree st rb | AtParse st rb => st = SOk /\ rb = body_to n q
  | AtDone st => st = (answer_to t n q r0).1
  end.
Definition rank (p : pc) : nat :=
  match p with
  | AtInit => 0 | AtUrl _ => 1 | AtList _ => 2 | AtAuth _ _ => 3 | AtOptions _ _ => 4 | AtPerform _ => 5 | AtCleanup _ _ _ => 6
  | AtFree _ _ => 7 | AtParse _ _ => 8 | AtDone _ => 9 | AtEnd => 10
  end.
Definition cell (n : nat) (q : sample_request) (r0 : R) (p : pc) (a : nat) : option obj :=
  match a with
  | 0%nat => if decide (rank p <= 7)%nat then Some (OString (serialize q)) else None
  | 1%nat =>
      match p with
      | AtUrl _ => Some (OHandle None [] None)
      | AtList _ | AtAuth _ _ | AtOptions _ _ => Some (OHandle (Some (c_string (url_of q))) [] None)
      | AtPerform _ | AtCleanup _ _ _ => Some (OHandle (Some (c_string (url_of q))) (three n) (Some (at_body n)))
      | _ => None
      end
  | 2%nat => if decide (rank p <= 8)%nat then Some (OResponse r0) else if decide (rank p = 9)%nat then Some (OResponse (answer_to t n q r0).2) else None
  | 3%nat => if decide (3 <= rank p)%nat then Some (OString "Content-Type: application/x-protobuf") else None
  | 4%nat => if decide (3 <= rank p)%nat then Some (OString "X-GFE-SSL: yes") else None
  | 5%nat => if decide (4 <= rank p)%nat then Some (OString (c_string (lt_auth t))) else None
  | _ => None
  end.

Record th_ok (n : nat) (qr : sample_request * R) (s : sworld) (th : thread) : Prop := ThOk {
  tok_check : t_check th = is_check qr.1; tok_body : t_body th = at_body n; tok_response : t_response th = at_response n;
  tok_pc : pc_ok n qr.1 qr.2 (t_pc th); tok_heap : forall a, s_heap s !! (n, a) = cell n qr.1 qr.2 (t_pc th) a }.
Definition alive (s : sworld) : Prop := s_transport s = Some t /\ s_curl s = true.
Record sinv (m : list (sample_request * R)) (s : sworld) : Prop := SInv {
  iv_len : length (s_threads s) = length m;
  iv_tr : alive s \/ s_transport s = None /\ s_curl s = false;
  iv_th : forall n th qr, s_threads s !! n = Some th -> m !! n = Some qr -> th_ok n qr s th;
  iv_none : forall n a, (length m <= n)%nat -> s_heap s !! (n, a) = None;
  iv_nodup : NoDup (answered_calls s);
  iv_ended : forall n, n ∈ answered_calls s <-> exists th, s_threads s !! n = Some th /\ t_pc th = AtEnd;
  iv_done : forall n st r, (n, st, r) ∈ s_done s -> exists q r0, m !! n = Some (q, r0) /\ (st, r) = answer_to t n q r0;
  iv_posted : NoDup (s_posts s).*1;
  iv_posts : forall n p, (n, p) ∈ s_posts s <-> exists th qr, s_threads s !! n = Some th /\ m !! n = Some qr /\ (6 <= rank (t_pc th))%nat /\ p = post_for n qr.1 }.

Lemma sinv_start : sinv [] (sample_start t).
Proof.
  split; cbn; [done|by left|by intros n th qr Hth _; rewrite lookup_nil in Hth|intros; apply lookup_empty|apply NoDup_nil_2| |by intros ??? ?%elem_of_nil|apply NoDup_nil_2|].
  - intros n. split; [by intros ?%elem_of_nil|]. intros (th & Hth & _). by rewrite lookup_nil in Hth.
  - intros n p. split; [by intros ?%elem_of_nil|]. intros (th & qr & Hth & _). by rewrite lookup_nil in Hth.
Qed.

Definition moved (p : pc) (th : thread) : thread := Thread (t_check th) (t_body th) (t_response th) p.
Lemma sinv_move m s n th qr p h P :
  sinv m s -> s_threads s !! n = Some th -> m !! n = Some qr -> t_pc th <> AtEnd -> p <> AtEnd -> pc_ok n qr.1 qr.2 p ->
  (forall a, h !! (n, a) = cell n qr.1 qr.2 p a) -> (forall k a, k <> n -> h !! (k, a) = s_heap s !! (k, a)) ->
  (P = s_posts s /\ ((6 <= rank p)%nat <-> (6 <= rank (t_pc th))%nat) \/ P = s_posts s ++ [(n, post_for n qr.1)] /\ (rank (t_pc th) < 6 <= rank p)%nat) ->
  sinv m (SWorld (s_transport s) (s_curl s) h (alter (moved p) n (s_threads s)) (s_done s) P).
Proof.
  intros [H1 H2 H3 H4 H5 H6 H7 H8 H9] Hth Hm Hne Hp Hpc Hn Hk HP. split; cbn; [by rewrite alter_length|done| | |done| |done| |].
  - intros k th' qr' Hk' Hqr'. destruct (decide (k = n)) as [->|Hkn].
    + rewrite list_lookup_alter, Hth in Hk'. injection Hk' as <-. rewrite Hm in Hqr'. injection Hqr' as <-.
      destruct (H3 _ _ _ Hth Hm) as [T1 T2 T3 _ _]. by split.
    + rewrite list_lookup_alter_ne in Hk' by done. destruct (H3 _ _ _ Hk' Hqr') as [T1 T2 T3 T4 T5]. split; [done..|]. intros a. cbn. by rewrite Hk.
  - intros k a Hka. rewrite Hk; [by apply H4|]. intros ->. apply lookup_lt_Some in Hm. lia.
  - intros k. change (answered_calls _) with (answered_calls s). rewrite H6. destruct (decide (k = n)) as [->|Hkn].
    + rewrite list_lookup_alter, Hth. split; intros (th' & [= <-] & E); [by congruence|]. by cbn in E.
    + by rewrite list_lookup_alter_ne.
  - destruct HP as [[-> _]|[-> [Hr _]]]; [done|]. rewrite fmap_app. apply NoDup_app. split; [done|]. split; [|apply NoDup_singleton].
    intros x Hx ->%elem_of_list_singleton. apply elem_of_list_fmap in Hx as ([k p'] & E & Hx). cbn in E. subst k. apply H9 in Hx as (th' & _ & Hth' & _ & Hr' & _).
    rewrite Hth in Hth'. injection Hth' as <-. lia.
  - intros k p'. assert (Hold : k <> n -> (k, p') ∈ P <-> (k, p') ∈ s_posts s).
    { intros Hkn. destruct HP as [[-> _]|[-> _]]; [done|]. rewrite elem_of_app, elem_of_list_singleton. naive_solver. }
    destruct (decide (k = n)) as [->|Hkn].
    + rewrite list_lookup_alter, Hth. destruct HP as [[-> Hr]|[-> [Hr1 Hr2]]].
      * rewrite H9. split; intros (th' & qr' & Hth' & Hm' & Hr' & E).
        -- rewrite Hth in Hth'. injection Hth' as <-. exists (moved p th), qr'. split; [done|]. split; [done|]. split; [by apply Hr|done].
        -- injection Hth' as <-. exists th, qr'. split; [done|]. split; [done|]. split; [by apply Hr|done].
      * rewrite elem_of_app, elem_of_list_singleton, H9. split.
        -- intros [(th' & qr' & Hth' & _ & Hr' & _)|E]. { rewrite Hth in Hth'. injection Hth' as <-. lia. }
           injection E as ->. exists (moved p th), qr. done.
        -- intros (th' & qr' & Hth' & Hm' & _ & E). right. rewrite Hm in Hm'. injection Hm' as <-. by rewrite E.
    + rewrite Hold, H9 by done. by rewrite list_lookup_alter_ne.
Qed.

Lemma answer_to_is n q r0 : answer_to t n q r0 =
  match parse (is_check q) (body_to n q) with Some r => (SOk, r) | None => (SInvalidArgument, left_over (body_to n q) r0) end.
Proof. reflexivity. Qed.

Ltac by_answer := match goal with H : answer_to _ _ _ _ = _ |- _ => cbn [pc_ok cell]; rewrite H; reflexivity end.
Ltac heap_at :=
  intros; rewrite ?lookup_insert_ne, ?lookup_delete_ne by (intros [=]; congruence); auto.
Ltac heap_here T5 a :=
  destruct a as [|[|[|[|[|[|a]]]]]];
  repeat first [rewrite lookup_insert|rewrite lookup_delete|rewrite lookup_insert_ne by (intros [=])|rewrite lookup_delete_ne by (intros [=])];
  try (rewrite T5); first [reflexivity|by_answer].

Ltac move_to Hinv Hth Hm T5 :=
  refine (sinv_move _ _ _ _ _ _ _ _ Hinv Hth Hm _ _ _ _ _ _); [done|done|first [done|by_answer]| | |first [left; split; [reflexivity|cbn; lia]|right; split; [reflexivity|cbn; lia]]];
  cbn [s_goto store s_set_heap s_post slist_append s_heap length app two];
  [intros a; unfold at_handle, at_body, at_response, at_header; heap_here T5 a|unfold at_handle, at_body, at_response, at_header; heap_at].

(** A step of a thread is defined as long as the transport is there, or the exchange is over; it keeps the invariant
    and goes on by one. *)
Lemma thread_step_ok m s n th qr :
  sinv m s -> s_threads s !! n = Some th -> m !! n = Some qr -> alive s \/ (7 <= rank (t_pc th))%nat ->
  exists s' p, thread_step n th s = Ok s' /\ sinv m s' /\ s_transport s' = s_transport s /\
    s_threads s' = alter (moved p) n (s_threads s) /\ rank p = Nat.min 10 (S (rank (t_pc th))).
Proof.
  intros Hinv Hth Hm Hal. pose proof (iv_th _ _ Hinv _ _ _ Hth Hm) as [T1 T2 T3 T4 T5].
  destruct th as [ck bd rs p]. cbn [t_check t_body t_response t_pc] in *. subst ck bd rs.
  assert (A1 : (rank p < 7)%nat -> curl_ready s = Ok tt) by (unfold curl_ready; destruct Hal as [[_ A]|A]; [by rewrite A|lia]).
  assert (A2 : (rank p < 7)%nat -> this s = Ok t) by (unfold this; destruct Hal as [[A _]|A]; [by rewrite A|lia]).
  assert (E0 : s_heap s !! at_body n = cell n qr.1 qr.2 p 0) by apply T5.
  assert (E1 : s_heap s !! at_handle n = cell n qr.1 qr.2 p 1) by apply T5.
  assert (E2 : s_heap s !! at_response n = cell n qr.1 qr.2 p 2) by apply T5.
  unfold thread_step. cbn [t_pc t_check t_body t_response].
  destruct p as [|c|c|c l|c l|c|c st rb|st rb|st rb|st|]; cbn [pc_ok rank] in T4, A1, A2;
    try (rewrite A1 by lia; cbn [obind]); try (rewrite A2 by lia; cbn [obind]).
  - eexists _, (AtUrl (at_handle n)). split; [reflexivity|]. split; [|by repeat split]. move_to Hinv Hth Hm T5.
  - subst c. unfold load_handle. rewrite E1. cbn [obind cell]. eexists _, (AtList (at_handle n)). split; [reflexivity|]. split; [|by repeat split]. move_to Hinv Hth Hm T5.
  - subst c. eexists _, (AtAuth (at_handle n) (two n)). split; [reflexivity|]. split; [|by repeat split]. move_to Hinv Hth Hm T5.
  - destruct T4 as [-> ->]. eexists _, (AtOptions (at_handle n) (three n)). split; [reflexivity|]. split; [|by repeat split]. move_to Hinv Hth Hm T5.
  - destruct T4 as [-> ->]. unfold load_handle. rewrite E1. cbn [obind cell]. eexists _, (AtPerform (at_handle n)). split; [reflexivity|]. split; [|by repeat split]. move_to Hinv Hth Hm T5.
  - subst c. assert (E3 : s_heap s !! at_header n 0 = _) by exact (T5 3%nat). assert (E4 : s_heap s !! at_header n 1 = _) by exact (T5 4%nat). assert (E5 : s_heap s !! at_header n 2 = _) by exact (T5 5%nat).
    unfold curl_perform, load_handle. rewrite E1. cbn [obind cell three load_all]. unfold load_string. rewrite E3, E4, E5, E0. cbn [obind cell rank decide].
    eexists _, (AtCleanup (at_handle n) SOk (body_to n qr.1)). split; [reflexivity|]. split; [|by repeat split]. move_to Hinv Hth Hm T5.
  - destruct T4 as (-> & -> & ->). unfold free. rewrite E1. cbn [obind cell]. eexists _, (AtFree SOk (body_to n qr.1)). split; [reflexivity|]. split; [|by repeat split]. move_to Hinv Hth Hm T5.
  - destruct T4 as (-> & ->). unfold free. rewrite E0. cbn [obind cell]. eexists _, (AtParse SOk (body_to n qr.1)). split; [reflexivity|]. split; [|by repeat split]. move_to Hinv Hth Hm T5.
  - destruct T4 as (-> & ->). cbn [status_eqb]. unfold load_response. rewrite E2. cbn [obind cell].
    pose proof (answer_to_is n qr.1 qr.2) as Ea.
    destruct (parse (is_check qr.1) (body_to n qr.1)) as [r|].
    + eexists _, (AtDone SOk). split; [reflexivity|]. split; [|by repeat split]. move_to Hinv Hth Hm T5.
    + eexists _, (AtDone SInvalidArgument). split; [reflexivity|]. split; [|by repeat split]. move_to Hinv Hth Hm T5.
  - (* on_done *)
    subst st. unfold load_response, free. rewrite E2. cbn [obind cell].
    eexists _, AtEnd. split; [reflexivity|]. split; [|by repeat split].
    cbn [s_goto s_set_heap s_heap s_transport s_curl s_threads s_done]. destruct Hinv as [H1 H2 H3 H4 H5 H6 H7 H8 H9].
    assert (Hnot : n ∉ answered_calls s). { rewrite H6. intros (th & Hth' & E). rewrite Hth in Hth'. by injection Hth' as <-. }
    split; cbn [s_transport s_curl s_heap s_threads s_done s_posts]; [by rewrite alter_length|done| | | | | |done|].
    + intros k th' qr' Hk' Hqr'. destruct (decide (k = n)) as [->|Hkn].
      * rewrite list_lookup_alter, Hth in Hk'. injection Hk' as <-. rewrite Hm in Hqr'. injection Hqr' as <-. split; [done..|].
        intros a. cbn [s_heap]. unfold at_response. heap_here T5 a.
      * rewrite list_lookup_alter_ne in Hk' by done. destruct (H3 _ _ _ Hk' Hqr') as [U1 U2 U3 U4 U5]. split; [done..|]. intros a. cbn [s_heap]. unfold at_response. by heap_at.
    + intros k a Hka. unfold at_response. apply lookup_lt_Some in Hm. rewrite lookup_delete_ne by (intros [=]; lia). by apply H4.
    + unfold answered_calls. cbn [s_done]. rewrite fmap_app. apply NoDup_app. split; [done|]. split; [|apply NoDup_singleton].
      cbn. intros x Hx ->%elem_of_list_singleton. by apply Hnot.
    + intros k. unfold answered_calls. cbn [s_done]. rewrite fmap_app, elem_of_app. cbn. rewrite elem_of_list_singleton. fold (answered_calls s). rewrite H6.
      destruct (decide (k = n)) as [->|Hkn].
      * rewrite list_lookup_alter, Hth. split; [intros _; by eexists|]. by right.
      * rewrite list_lookup_alter_ne by done. split; [by intros [? | ->]|by left].
    + intros k st r. rewrite elem_of_app, elem_of_list_singleton. intros [Hd|Hd]; [by apply H7|]. injection Hd as -> -> ->. exists qr.1, qr.2. destruct qr as [q r0]. split; [done|].
      symmetry. exact (surjective_pairing (answer_to t n q r0)).
    + intros k p. rewrite H9. destruct (decide (k = n)) as [->|Hkn]; [|by rewrite list_lookup_alter_ne]. rewrite list_lookup_alter, Hth.
      split; intros (th' & qr' & Hth' & Hm' & Hr' & E); injection Hth' as <-; (eexists _, qr'; split; [reflexivity|]; split; [done|]; split; [cbn; lia|done]).
  - exists s, AtEnd. split; [done|]. split; [done|]. split; [done|]. split; [|done]. apply list_eq. intros k. destruct (decide (k = n)) as [->|Hkn].
    + by rewrite list_lookup_alter, Hth.
    + by rewrite list_lookup_alter_ne.
Qed.

Lemma thread_step_dead n th s : s_curl s = false -> (rank (t_pc th) < 7)%nat -> thread_step n th s = UB UseAfterFree.
Proof. intros Hc Hr. unfold thread_step, curl_ready. rewrite Hc. destruct (t_pc th); cbn in Hr; try reflexivity; lia. Qed.

Lemma sinv_call m s q r0 : sinv m s -> alive s -> exists s', sample_step (ACall q r0) s = Ok s' /\ sinv (m ++ [(q, r0)]) s' /\ alive s' /\
  s_threads s' = s_threads s ++ [Thread (is_check q) (at_body (length m)) (at_response (length m)) AtInit] /\ s_done s' = s_done s.
Proof.
  intros [H1 H2 H3 H4 H5 H6 H7 H8 H9] [Ht Hc]. unfold sample_step, this. rewrite Ht. cbn [obind]. rewrite H1.
  eexists. split; [reflexivity|]. split; [|by repeat split]. cbn [store s_set_heap s_heap s_transport s_curl s_threads s_done s_posts].
  split; cbn [s_transport s_curl s_heap s_threads s_done s_posts].
  - rewrite !app_length. cbn. lia.
  - by left.
  - intros n th qr Hth Hm. destruct (decide (n < length m)%nat) as [Hn|Hn].
    + rewrite lookup_app_l in Hth by lia. rewrite lookup_app_l in Hm by lia. destruct (H3 _ _ _ Hth Hm) as [U1 U2 U3 U4 U5]. split; [done..|].
      intros a. cbn [s_heap]. unfold at_body, at_response. rewrite !lookup_insert_ne by (intros [=]; lia). apply U5.
    + rewrite lookup_app_r in Hth by lia. rewrite lookup_app_r in Hm by lia. rewrite H1 in Hth. destruct (n - length m)%nat as [|j] eqn:E; [|by destruct j].
      assert (n = length m) as -> by lia. injection Hth as <-. injection Hm as <-. split; [done..|].
      intros a. cbn [s_heap t_pc fst snd]. assert (T5 : forall a, s_heap s !! (length m, a) = None) by (intros; by apply H4). unfold at_body, at_response. heap_here T5 a.
  - intros n a Hn. rewrite app_length in Hn. cbn in Hn. unfold at_body, at_response. rewrite !lookup_insert_ne by (intros [=]; lia). apply H4. lia.
  - done.
  - intros n. change (answered_calls _) with (answered_calls s). rewrite H6. split; intros (th & Hth & E).
    + exists th. split; [|done]. by apply lookup_app_l_Some.
    + exists th. split; [|done]. apply lookup_app_Some in Hth as [Hth|[_ Hth]]; [done|]. destruct (n - _)%nat as [|[|j]]; [|done..]. injection Hth as <-. done.
  - intros n st r Hd. destruct (H7 _ _ _ Hd) as (q' & r' & Hm & E). exists q', r'. split; [|done]. by apply lookup_app_l_Some.
  - done.
  - intros n p. rewrite H9. split; intros (th & qr & Hth & Hm & Hr & E).
    + exists th, qr. split; [by apply lookup_app_l_Some|]. split; [by apply lookup_app_l_Some|done].
    + apply lookup_app_Some in Hth as [Hth|[_ Hth]].
      * exists th, qr. split; [done|]. split; [|done]. rewrite lookup_app_l in Hm; [done|]. rewrite <- H1. by eapply lookup_lt_Some.
      * destruct (n - _)%nat as [|[|j]]; [|done..]. injection Hth as <-. cbn in Hr. lia.
Qed.

Lemma sinv_delete m s : sinv m s -> alive s -> exists s', sample_step ADelete s = Ok s' /\ sinv m s' /\ s_curl s' = false /\ s_threads s' = s_threads s /\ s_done s' = s_done s.
Proof.
  intros [H1 H2 H3 H4 H5 H6 H7 H8 H9] [Ht Hc]. unfold sample_step, this. rewrite Ht. cbn [obind]. eexists. split; [reflexivity|]. split; [|done].
  split; try done; [by right|]. intros n th qr Hth Hm. destruct (H3 _ _ _ Hth Hm) as [U1 U2 U3 U4 U5]. by split.
Qed.

Lemma free_keeps a s s' : free a s = Ok s' -> s_done s' = s_done s /\ s_transport s' = s_transport s /\ s_curl s' = s_curl s.
Proof. unfold free. destruct (s_heap s !! a); [|done]. by intros [= <-]. Qed.
Lemma perform_keeps n c s a s' : curl_perform n c s = Ok (a, s') -> s_done s' = s_done s /\ s_transport s' = s_transport s /\ s_curl s' = s_curl s.
Proof.
  unfold curl_perform. destruct (load_handle c s) as [[[[url|] l] [b|]]| | |]; cbn [obind]; try done. destruct (load_all l s); cbn [obind]; try done.
  destruct (load_string b s); cbn [obind]; try done. by intros [= <- <-].
Qed.
Lemma obind_ok_inv {A B : Type} (x : outcome A) (f : A -> outcome B) b : obind x f = Ok b -> exists a, x = Ok a /\ f a = Ok b.
Proof. destruct x as [a| | |]; [|done..]. intros H. by exists a. Qed.
Lemma thread_step_keeps n th s s' : thread_step n th s = Ok s' ->
  s_done s `prefix_of` s_done s' /\ s_transport s' = s_transport s /\ s_curl s' = s_curl s.
Proof.
  unfold thread_step. destruct (t_pc th); intros H; repeat match goal with H : obind _ _ = Ok _ |- _ => apply obind_ok_inv in H as (? & ? & ?) end;
    try (unfold slist_append in *; simplify_eq; cbn; split; [reflexivity|by split]).
  - destruct x0 as [an s1]. simplify_eq. match goal with H : curl_perform _ _ _ = Ok _ |- _ => apply perform_keeps in H as (E1 & E2 & E3) end. cbn. rewrite E1, E2, E3. split; [reflexivity|done].
  - simplify_eq. match goal with H : free _ _ = Ok _ |- _ => apply free_keeps in H as (E1 & E2 & E3) end. cbn. rewrite E1, E2, E3. split; [reflexivity|done].
  - simplify_eq. match goal with H : free _ _ = Ok _ |- _ => apply free_keeps in H as (E1 & E2 & E3) end. cbn. rewrite E1, E2, E3. split; [reflexivity|done].
  - destruct (status_eqb status SOk); [|simplify_eq; cbn; split; [reflexivity|done]]. apply obind_ok_inv in H as (? & ? & H).
    destruct (parse _ _); simplify_eq; cbn; (split; [reflexivity|done]).
  - simplify_eq. match goal with H : free _ _ = Ok _ |- _ => apply free_keeps in H as (E1 & E2 & E3) end. cbn. rewrite E1, E2, E3. split; [by eexists|done].
Qed.

Lemma turns_cons n a l : turns n (a :: l) = (turns n [a] + turns n l)%nat.
Proof. unfold turns. cbn. rewrite !app_length. cbn. lia. Qed.
Lemma turns_call n q r0 : turns n [ACall q r0] = 0%nat. Proof. reflexivity. Qed.
Lemma turns_delete n : turns n [ADelete] = 0%nat. Proof. reflexivity. Qed.
Lemma turns_same n : turns n [AStep n] = 1%nat. Proof. unfold turns. cbn. by destruct (decide (n = n)). Qed.
Lemma turns_other n k : k <> n -> turns n [AStep k] = 0%nat. Proof. intros H. unfold turns. cbn. by destruct (decide (k = n)). Qed.
Lemma turns_app n l1 l2 : turns n (l1 ++ l2) = (turns n l1 + turns n l2)%nat.
Proof. unfold turns. rewrite bind_app, app_length. done. Qed.
Lemma made_app l1 l2 : made (l1 ++ l2) = made l1 ++ made l2.
Proof. apply bind_app. Qed.
Lemma rank_le p : (rank p <= 10)%nat.
Proof. destruct p; cbn; lia. Qed.
Lemma rank_end p : rank p = 10%nat -> p = AtEnd.
Proof. by destruct p. Qed.

Lemma step_keeps m s a s' : sinv m s -> sample_step a s = Ok s' ->
  sinv (m ++ made [a]) s' /\ (alive s' <-> alive s /\ a <> ADelete) /\
  s_done s `prefix_of` s_done s' /\
  forall n th, s_threads s !! n = Some th -> exists th', s_threads s' !! n = Some th' /\ rank (t_pc th') = Nat.min 10 (rank (t_pc th) + turns n [a]).
Proof.
  intros Hinv Hs. destruct a as [q r0| |n].
  - assert (Hal : alive s). { destruct (iv_tr _ _ Hinv) as [?|[E _]]; [done|]. cbn in Hs. unfold this in Hs. by rewrite E in Hs. }
    destruct (sinv_call _ _ q r0 Hinv Hal) as (s1 & E & H1 & H2 & H3 & H4). rewrite Hs in E. injection E as <-. split; [done|]. split; [done|]. split; [by rewrite H4|].
    intros n th Hth. exists th. split; [rewrite H3; by apply lookup_app_l_Some|]. rewrite turns_call. pose proof (rank_le (t_pc th)). lia.
  - assert (Hal : alive s). { destruct (iv_tr _ _ Hinv) as [?|[E _]]; [done|]. cbn in Hs. unfold this in Hs. by rewrite E in Hs. }
    destruct (sinv_delete _ _ Hinv Hal) as (s1 & E & H1 & H2 & H3 & H4). rewrite Hs in E. injection E as <-. cbn [made mbind list_bind app]. rewrite app_nil_r.
    split; [done|]. split. { split; [|by intros [_ ?]]. intros [_ E]. by rewrite H2 in E. } split; [by rewrite H4|].
    intros n th Hth. exists th. rewrite H3. split; [done|]. rewrite turns_delete. pose proof (rank_le (t_pc th)). lia.
  - cbn [made mbind list_bind app]. rewrite app_nil_r. cbn [sample_step] in Hs. destruct (s_threads s !! n) as [th|] eqn:Hth.
    + destruct (thread_step_keeps _ _ _ _ Hs) as (K1 & K2 & K3).
      destruct (m !! n) as [qr|] eqn:Hm. 2: { apply lookup_ge_None in Hm. apply lookup_lt_Some in Hth. rewrite (iv_len _ _ Hinv) in Hth. lia. }
      assert (Hal : alive s \/ (7 <= rank (t_pc th))%nat).
      { destruct (iv_tr _ _ Hinv) as [?|[_ E]]; [by left|]. right. destruct (decide (7 <= rank (t_pc th))%nat) as [|Hr]; [done|].
        rewrite thread_step_dead in Hs by (done || lia). done. }
      destruct (thread_step_ok _ _ _ _ _ Hinv Hth Hm Hal) as (s1 & p & E & H1 & H2 & H3 & H4). rewrite Hs in E. injection E as <-.
      split; [done|]. split. { unfold alive. rewrite K2, K3. naive_solver. } split; [done|].
      intros k th' Hk. rewrite H3. destruct (decide (k = n)) as [->|Hkn].
      * rewrite list_lookup_alter, Hth. rewrite Hth in Hk. injection Hk as <-. eexists. split; [done|]. rewrite turns_same. cbn [moved t_pc]. rewrite H4. lia.
      * rewrite list_lookup_alter_ne by done. exists th'. split; [done|]. rewrite turns_other by done. pose proof (rank_le (t_pc th')). lia.
    + injection Hs as <-. split; [done|]. split; [naive_solver|]. split; [done|]. intros k th' Hk. exists th'. split; [done|].
      rewrite turns_other by congruence. pose proof (rank_le (t_pc th')). lia.
Qed.

Lemma run_app l1 l2 s : sample_run (l1 ++ l2) s = obind (sample_run l1 s) (sample_run l2).
Proof. revert s. induction l1 as [|a l1 IH]; intros s; [done|]. cbn. destruct (sample_step a s); [apply IH|done..]. Qed.

Lemma run_keeps l : forall m s s', sinv m s -> sample_run l s = Ok s' ->
  sinv (m ++ made l) s' /\ (alive s' <-> alive s /\ ADelete ∉ l) /\ s_done s `prefix_of` s_done s' /\
  forall n th, s_threads s !! n = Some th -> exists th', s_threads s' !! n = Some th' /\ rank (t_pc th') = Nat.min 10 (rank (t_pc th) + turns n l).
Proof.
  induction l as [|a l IH]; intros m s s' Hinv Hr.
  - injection Hr as <-. rewrite app_nil_r. split; [done|]. split. { split; [intros ?; split; [done|apply not_elem_of_nil]|by intros [? _]]. } split; [done|].
    intros n th Hth. exists th. split; [done|]. change (turns n []) with 0%nat. pose proof (rank_le (t_pc th)). lia.
  - cbn in Hr. apply obind_ok_inv in Hr as (s1 & H1 & H2). destruct (step_keeps _ _ _ _ Hinv H1) as (A1 & A2 & A3 & A4).
    destruct (IH _ _ _ A1 H2) as (B1 & B2 & B3 & B4). split; [|split; [|split]].
    + rewrite <- app_assoc in B1. change (a :: l) with ([a] ++ l). by rewrite made_app.
    + rewrite B2, A2, not_elem_of_cons. naive_solver.
    + by etrans.
    + intros n th Hth. destruct (A4 _ _ Hth) as (th1 & Hth1 & R1). destruct (B4 _ _ Hth1) as (th2 & Hth2 & R2). exists th2. split; [done|].
      rewrite turns_cons. rewrite R2, R1. lia.
Qed.
Lemma run_start l s : sample_run l (sample_start t) = Ok s -> sinv (made l) s /\ (alive s <-> ADelete ∉ l).
Proof. intros H. destruct (run_keeps _ _ _ _ sinv_start H) as (H1 & H2 & _). split; [done|]. rewrite H2. split; [by intros [_ ?]|]. by intros ?. Qed.

Lemma delete_dec (l : list sact) : ADelete ∈ l \/ ADelete ∉ l.
Proof.
  induction l as [|a l [IH|IH]]; [right; apply not_elem_of_nil|left; by constructor|].
  destruct a; [|left; constructor|]; right; by rewrite not_elem_of_cons.
Qed.
Lemma dead_split l s : sample_run l (sample_start t) = Ok s -> ~ alive s -> exists l1 l2, l = l1 ++ ADelete :: l2.
Proof. intros Hs Hna. destruct (delete_dec l) as [Hd|Hd]; [by apply elem_of_list_split in Hd|]. exfalso. apply Hna. by apply (run_start _ _ Hs). Qed.

(** ** Results *)
Lemma deletion_safe l : deleted_when_answered t l -> exists s, sample_run l (sample_start t) = Ok s.
Proof.
  induction l as [|a l IH] using rev_ind; intros Hd; [by eexists|].
  assert (Hd' : deleted_when_answered t l).
  { intros l1 l2 ->. destruct (Hd l1 (l2 ++ [a])) as [H1 H2]; [by rewrite <- app_assoc|]. split; [|done]. by apply Forall_app in H1 as [? _]. }
  destruct (IH Hd') as [s Hs]. rewrite run_app, Hs. cbn [obind sample_run]. destruct (run_start _ _ Hs) as [Hinv Hal].
  assert (Hst : Forall (fun a => exists n, a = AStep n) [a] \/ alive s).
  { destruct (iv_tr _ _ Hinv) as [Ha|[_ Hc]]; [by right|]. left. destruct (dead_split _ _ Hs) as (l1 & l2 & ->); [by intros [_ E]; rewrite Hc in E|].
    destruct (Hd l1 (l2 ++ [a])) as [H1 _]; [by rewrite <- app_assoc|]. by apply Forall_app in H1 as [_ ?]. }
  destruct a as [q r0| |n].
  - destruct Hst as [Hst|Ha]; [apply Forall_singleton in Hst as [? [=]]|]. destruct (sinv_call _ _ q r0 Hinv Ha) as (s' & -> & _). by eexists.
  - destruct Hst as [Hst|Ha]; [apply Forall_singleton in Hst as [? [=]]|]. destruct (sinv_delete _ _ Hinv Ha) as (s' & -> & _). by eexists.
  - clear Hst. cbn [sample_step]. destruct (s_threads s !! n) as [th|] eqn:Hth; [|by eexists].
    assert (Hn : (n < length (made l))%nat) by (rewrite <- (iv_len _ _ Hinv); by eapply lookup_lt_Some).
    destruct (lookup_lt_is_Some_2 _ _ Hn) as [qr Hqr].
    assert (Hok : alive s \/ (7 <= rank (t_pc th))%nat).
    { destruct (iv_tr _ _ Hinv) as [Ha|[_ Hc]]; [by left|]. right. destruct (dead_split _ _ Hs) as (l1 & l2 & ->); [by intros [_ E]; rewrite Hc in E|].
      destruct (Hd l1 (l2 ++ [AStep n])) as [H1 H2]; [by rewrite <- app_assoc|]. apply Forall_app in H1 as [H1 _].
      rewrite run_app in Hs. apply obind_ok_inv in Hs as (s1 & Hs1 & Hs2). destruct (run_start _ _ Hs1) as [Hinv1 _].
      destruct (run_keeps _ _ _ _ Hinv1 Hs2) as (_ & _ & _ & Hk).
      assert (Hm : made (ADelete :: l2) = []). { cbn. clear -H1. induction H1 as [|a l2 [k ->] _ IH]; [done|exact IH]. }
      rewrite made_app, Hm, app_nil_r in Hn. pose proof (H2 _ _ Hs1 Hn) as Hans. apply (iv_ended _ _ Hinv1) in Hans as (th1 & Hth1 & E1).
      destruct (Hk _ _ Hth1) as (th2 & Hth2 & R2). rewrite Hth in Hth2. injection Hth2 as <-. rewrite E1 in R2. cbn [rank] in R2. lia. }
    destruct (thread_step_ok _ _ _ _ _ Hinv Hth Hqr Hok) as (s' & _ & -> & _). by eexists.
Qed.

Lemma answered_once l s : sample_run l (sample_start t) = Ok s -> NoDup (answered_calls s) /\
  forall n st r, (n, st, r) ∈ s_done s -> exists q r0, made l !! n = Some (q, r0) /\ (st, r) = answer_to t n q r0.
Proof. intros H. destruct (run_start _ _ H) as [Hinv _]. split; [apply (iv_nodup _ _ Hinv)|apply (iv_done _ _ Hinv)]. Qed.

Lemma answered_all l1 l2 s n : sample_run (l1 ++ l2) (sample_start t) = Ok s -> (n < length (made l1))%nat -> (10 <= turns n l2)%nat -> n ∈ answered_calls s.
Proof.
  intros H Hn Ht. destruct (run_start _ _ H) as [Hinv _]. rewrite run_app in H. apply obind_ok_inv in H as (s1 & H1 & H2). destruct (run_start _ _ H1) as [Hinv1 _].
  rewrite <- (iv_len _ _ Hinv1) in Hn. destruct (lookup_lt_is_Some_2 _ _ Hn) as [th Hth]. destruct (run_keeps _ _ _ _ Hinv1 H2) as (_ & _ & _ & Hk).
  destruct (Hk _ _ Hth) as (th' & Hth' & Hr). apply (iv_ended _ _ Hinv). exists th'. split; [done|]. apply rank_end. lia.
Qed.

Lemma posted_once l s : sample_run l (sample_start t) = Ok s -> NoDup (s_posts s).*1 /\
  (forall n p, (n, p) ∈ s_posts s -> exists q r0, made l !! n = Some (q, r0) /\ p = post_of (if is_check q then lt_check_url t else lt_report_url t) (lt_auth t) (serialize q)) /\
  (forall n, n ∈ answered_calls s -> n ∈ (s_posts s).*1).
Proof.
  intros H. destruct (run_start _ _ H) as [Hinv _]. split; [apply (iv_posted _ _ Hinv)|]. split.
  - intros n p Hp. apply (iv_posts _ _ Hinv) in Hp as (th & [q r0] & _ & Hm & _ & ->). by exists q, r0.
  - intros n Hn. apply (iv_ended _ _ Hinv) in Hn as (th & Hth & E). pose proof (lookup_lt_Some _ _ _ Hth) as Hlt. rewrite (iv_len _ _ Hinv) in Hlt.
    destruct (lookup_lt_is_Some_2 _ _ Hlt) as [qr Hqr]. apply elem_of_list_fmap. exists (n, post_for n qr.1). split; [done|].
    apply (iv_posts _ _ Hinv). exists th, qr. rewrite E. cbn. split; [done|]. split; [done|]. split; [lia|done].
Qed.

Lemma memory_left l s : sample_run l (sample_start t) = Ok s -> (forall n, (n < length (made l))%nat -> n ∈ answered_calls s) ->
  forall a o, s_heap s !! a = Some o <-> exists n i x, (n < length (made l))%nat /\ a = at_header n i /\ o = OString x /\
    ["Content-Type: application/x-protobuf"%string; "X-GFE-SSL: yes"%string; c_string (lt_auth t)] !! i = Some x.
Proof.
  intros H Hall [n a] o. destruct (run_start _ _ H) as [Hinv _]. destruct (decide (n < length (made l))%nat) as [Hn|Hn].
  - pose proof (Hall _ Hn) as Hans. apply (iv_ended _ _ Hinv) in Hans as (th & Hth & Ep). destruct (lookup_lt_is_Some_2 _ _ Hn) as [qr Hqr].
    destruct (iv_th _ _ Hinv _ _ _ Hth Hqr) as [_ _ _ _ T5]. rewrite T5, Ep. split.
    + intros Hc. destruct a as [|[|[|[|[|[|a]]]]]]; cbn in Hc; try done; injection Hc as <-; [exists n, 0%nat|exists n, 1%nat|exists n, 2%nat]; eexists; done.
    + intros (n' & i & x & _ & Ea & -> & Hi). injection Ea as <- ->. destruct i as [|[|[|i]]]; cbn in Hi |- *; by simplify_eq.
  - rewrite (iv_none _ _ Hinv) by lia. split; [done|]. intros (n' & i & x & Hn' & Ea & _). injection Ea as <- _. done.
Qed.

Lemma steps_ok m s l : sinv m s -> alive s -> Forall (fun a => exists n, a = AStep n) l -> exists s', sample_run l s = Ok s' /\ alive s'.
Proof.
  intros Hinv Ha Hl. revert s Hinv Ha. induction Hl as [|a l [n ->] Hl IH]; intros s Hinv Ha; [by eexists|].
  assert (Hs : exists s1, sample_step (AStep n) s = Ok s1).
  { cbn [sample_step]. destruct (s_threads s !! n) as [th|] eqn:Hth; [|by eexists]. pose proof (lookup_lt_Some _ _ _ Hth) as Hn. rewrite (iv_len _ _ Hinv) in Hn.
    destruct (lookup_lt_is_Some_2 _ _ Hn) as [qr Hqr]. destruct (thread_step_ok _ _ _ _ _ Hinv Hth Hqr (or_introl Ha)) as (s1 & _ & -> & _). by eexists. }
  destruct Hs as [s1 Hs]. cbn [sample_run]. rewrite Hs. cbn [obind]. destruct (step_keeps _ _ _ _ Hinv Hs) as (H1 & H2 & _). cbn in H1. rewrite app_nil_r in H1.
  apply IH; [done|]. by apply H2.
Qed.
Lemma turns_replicate n k : turns n (replicate k (AStep n)) = k.
Proof. induction k as [|k IH]; [done|]. cbn [replicate]. rewrite turns_cons, turns_same, IH. lia. Qed.

(** A call, [k] turns of its thread, the deletion of the transport, and one more turn. *)
Lemma delete_during l s q r0 k : sample_run l (sample_start t) = Ok s -> ADelete ∉ l ->
  let n := length (made l) in
  let l' := l ++ ACall q r0 :: replicate k (AStep n) ++ [ADelete; AStep n] in
  ((k < 7)%nat -> sample_run l' (sample_start t) = UB UseAfterFree) /\ ((7 <= k)%nat -> exists s', sample_run l' (sample_start t) = Ok s').
Proof.
  intros Hs Hd n l'. destruct (run_start _ _ Hs) as [Hinv Hal]. destruct (sinv_call _ _ q r0 Hinv (proj2 Hal Hd)) as (s1 & E1 & I1 & A1 & T1 & _).
  destruct (steps_ok _ _ (replicate k (AStep n)) I1 A1) as (s2 & E2 & A2). { apply Forall_replicate. by eexists. }
  destruct (run_keeps _ _ _ _ I1 E2) as (I2 & _ & _ & Hk). destruct (sinv_delete _ _ I2 A2) as (s3 & E3 & I3 & C3 & T3 & _).
  assert (Hth : s_threads s1 !! n = Some (Thread (is_check q) (at_body n) (at_response n) AtInit)).
  { rewrite T1. unfold n. rewrite <- (iv_len _ _ Hinv) at 1. by rewrite lookup_app_r, Nat.sub_diag by lia. }
  destruct (Hk _ _ Hth) as (th & Hth2 & Hr). rewrite turns_replicate in Hr. cbn [t_pc rank] in Hr. rewrite <- T3 in Hth2.
  assert (E : sample_run l' (sample_start t) = thread_step n th s3).
  { unfold l'. rewrite run_app, Hs. cbn [obind sample_run]. rewrite E1. cbn [obind]. rewrite run_app, E2. cbn [obind sample_run]. rewrite E3. cbn [obind sample_run sample_step].
    rewrite Hth2. by destruct (thread_step n th s3). }
  rewrite E. split; intros Hk7.
  - apply thread_step_dead; [done|lia].
  - pose proof (lookup_lt_Some _ _ _ Hth2) as Hn. rewrite (iv_len _ _ I3) in Hn. destruct (lookup_lt_is_Some_2 _ _ Hn) as [qr Hqr].
    destruct (thread_step_ok _ _ _ _ _ I3 Hth2 Hqr) as (s' & _ & -> & _); [right; lia|by eexists].
Qed.

Lemma call_after_delete l s q r0 : sample_run l (sample_start t) = Ok s -> ADelete ∈ l -> sample_run (l ++ [ACall q r0]) (sample_start t) = UB UseAfterFree.
Proof.
  intros H Hd. destruct (run_start _ _ H) as [Hinv Ha]. rewrite run_app, H. cbn [obind sample_run sample_step].
  destruct (iv_tr _ _ Hinv) as [Hal|[E _]]; [by apply Ha in Hal|]. unfold this. by rewrite E.
Qed.
End proofs.

Lemma posted_to server service token l s : sample_run l (sample_start (NewCurlTransport server service token)) = Ok s -> NoDup (s_posts s).*1 /\
  (forall n p, (n, p) ∈ s_posts s -> exists q r0, made l !! n = Some (q, r0) /\
     p = post_of (server +:+ "/v1/services/" +:+ service +:+ match q with SqCheck _ => ":check" | SqReport _ => ":report" end)
           ("Authorization: Bearer " +:+ token) (serialize q)) /\
  (forall n, n ∈ answered_calls s -> n ∈ (s_posts s).*1).
Proof.
  intros H. destruct (posted_once _ _ _ H) as (H1 & H2 & H3). split; [done|]. split; [|done]. intros n p Hp.
  destruct (H2 n p Hp) as (q & r0 & Hm & ->). exists q, r0. split; [done|]. by destruct q.
Qed.
End threads.
