(** Model of utils/md5.h and utils/md5.cc: the MD5 class, and of src/signature.cc call by call on such an object.

    Signature.v represents an MD5 object by the bytes fed to it.  Here the object is modelled with its flag and its
    stored digest, the calls of src/signature.cc are made on it one by one, and the two are shown to agree. *)
From Verif Require Import Proto Signature.
From Coq Require Import Ascii.
Local Open Scope Z_scope.

Section md5.
(** MD5_Final applied to the bytes given to MD5_Update since MD5_Init (OpenSSL; not in /repo). *)
Variable md5 : string -> string.

(** utils/md5.h:62-68 the fields.
    Simplification: OpenSSL's context is the string of the bytes given so far. *)
Record hasher := Hasher { m_ctx : string; m_digest : string; m_finalized : bool }.
(** utils/md5.cc:22 the constructor; digest_ is uninitialised. *)
Definition NewMD5 (garbage : string) : hasher := Hasher "" garbage false.
(** utils/md5.cc:24-29 Update; utils/md5.h:35-37 (strlen of a NUL-terminated string), 40-42 call it.  The int overload
    (45-47) has no caller and is not modelled. *)
Definition Update (data : string) (h : hasher) : outcome hasher :=
  if m_finalized h then Abort else Ok (Hasher (m_ctx h +:+ data) (m_digest h) false).
(** utils/md5.cc:31-37 Digest. *)
Definition Digest (h : hasher) : string * hasher :=
  let h := if m_finalized h then h else Hasher (m_ctx h) (md5 (m_ctx h)) true in
  (m_digest h, h).
(** utils/md5.cc:50-52 operator(). *)
Definition DigestOf (data : string) (h : hasher) : outcome (string * hasher) :=
  let! h := Update data h in Ok (Digest h).

(** utils/md5.cc:39-48 DebugString, with [buf] the uninitialised local buffer of 33 chars; a store outside it is
    undefined.  sprintf with "%02x" and a value below 256 stores two lower-case hexadecimal digits and a NUL. *)
Definition put (p : nat) (a : ascii) (buf : list ascii) : outcome (list ascii) :=
  if (p <? length buf)%nat then Ok (<[p := a]> buf) else UB IndexOutOfRange.
Definition digit (n : nat) : ascii := ascii_of_nat (if (n <? 10)%nat then 48 + n else 87 + n).
Definition sprintf_02x (p : nat) (b : ascii) (buf : list ascii) : outcome (list ascii) :=
  let! buf := put p (digit (nat_of_ascii b / 16)) buf in
  let! buf := put (p + 1) (digit (nat_of_ascii b mod 16)) buf in
  put (p + 2) zero buf.
Fixpoint debug_loop (digest : list ascii) (p : nat) (buf : list ascii) : outcome (nat * list ascii) :=
  match digest with
  | [] => Ok (p, buf)
  | b :: digest' => let! buf := sprintf_02x p b buf in debug_loop digest' (p + 2) buf
  end.
Definition DebugString (buf : list ascii) (digest : string) : outcome string :=
  let bytes := String.list_ascii_of_string digest in
  if (length bytes =? 16)%nat then
    let! pb := debug_loop bytes 0 buf in
    let! buf := put pb.1 zero pb.2 in
    Ok (String.string_of_list_ascii (take 32 buf))
  else Abort.

(** ** src/signature.cc on MD5 objects *)
Variable ord : hash_order.
(** src/signature.cc:36-48 UpdateHashLabels. *)
Definition HashLabels (labels : gmap string string) (h : hasher) : outcome hasher :=
  ofold (fun h kv => let! h := Update NUL h in let! h := Update kv.1 h in let! h := Update NUL h in Update kv.2 h)
        h (smap_range (ho_list ord labels)).
(** src/signature.cc:56-65 GenerateReportOperationSignature. *)
Definition ReportOperationSignature (g : string) (o : operation) : outcome string :=
  let! h := Update (op_consumer o) (NewMD5 g) in
  let! h := Update NUL h in
  let! h := Update (op_name o) h in
  let! h := HashLabels (op_labels o) h in
  Ok (Digest h).1.
(** src/signature.cc:67-72 GenerateReportMetricValueSignature. *)
Definition ReportMetricValueSignature (g : string) (mv : metric_value) : outcome string :=
  let! h := HashLabels (mv_labels mv) (NewMD5 g) in
  Ok (Digest h).1.
(** src/signature.cc:74-107 GenerateCheckRequestSignature. *)
Definition CheckRequestSignature (g : string) (r : check_request) : outcome string :=
  let o := op_get (cr_operation r) in
  let! h := Update (op_name o) (NewMD5 g) in
  let! h := Update NUL h in
  let! h := Update (op_consumer o) h in
  let! h := Update NUL h in
  let! h := HashLabels (op_labels o) h in
  let! h := ofold (fun h nv => let! h := Update NUL h in let! h := Update nv.1 h in
                               ofold (fun h mv => HashLabels (mv_labels mv) h) h nv.2)
                  h (check_metric_map (op_mvs o)) in
  let! h := Update NUL h in
  Ok (Digest h).1.
(** src/signature.cc:109-129 GenerateAllocateQuotaRequestSignature. *)
Definition QuotaRequestSignature (g : string) (r : quota_request) : outcome string :=
  let o := qop_get (qr_operation r) in
  let! h := Update (qo_method o) (NewMD5 g) in
  let! h := Update NUL h in
  let! h := Update (qo_consumer o) h in
  let names := foldl (fun m s => sset_insert (mvs_name s) m) [] (qo_metrics o) in
  let! h := ofold (fun h n => let! h := Update NUL h in Update n h) h names in
  Ok (Digest h).1.

(** ** Specification *)
(** Calls on one object, each with what it returned (Update returns the object itself). *)
Inductive hcall := HUpdate (data : string) | HDigest.
Fixpoint hcalls (l : list hcall) (h : hasher) : outcome (hasher * list string) :=
  match l with
  | [] => Ok (h, [])
  | HUpdate d :: l' => let! h := Update d h in hcalls l' h
  | HDigest :: l' => let (d, h) := Digest h in let! hr := hcalls l' h in Ok (hr.1, d :: hr.2)
  end.
Definition data_of (l : list hcall) : list string := flat_map (fun c => match c with HUpdate d => [d] | HDigest => [] end) l.
Fixpoint concat_strings (l : list string) : string := match l with [] => "" | s :: l' => s +:+ concat_strings l' end.
(** The value of a hexadecimal digit. *)
Definition hex_value (a : ascii) : option nat :=
  let n := nat_of_ascii a in
  if (48 <=? n)%nat && (n <=? 57)%nat then Some (n - 48)%nat
  else if (97 <=? n)%nat && (n <=? 102)%nat then Some (n - 87)%nat
  else None.

(** ** Proofs *)
Lemma sapp_assoc (a b c : string) : a +:+ b +:+ c = (a +:+ b) +:+ c.
Proof. induction a as [|x a IH]; [done|]. exact (f_equal (String.String x) IH). Qed.
Lemma sapp_nil (a : string) : a +:+ "" = a.
Proof. induction a as [|x a IH]; [done|]. exact (f_equal (String.String x) IH). Qed.

Definition open (s g : string) : hasher := Hasher s g false.
Lemma update_open d s g : Update d (open s g) = Ok (open (s +:+ d) g).
Proof. done. Qed.
Lemma updates_open ds s g : hcalls (HUpdate <$> ds) (open s g) = Ok (open (s +:+ concat_strings ds) g, []).
Proof.
  revert s. induction ds as [|d ds IH]; intros s; [by rewrite sapp_nil|]. rewrite fmap_cons. cbn [hcalls]. rewrite update_open. cbn [obind].
  rewrite IH. cbn [concat_strings]. by rewrite sapp_assoc.
Qed.
Lemma digests_closed n s g : hcalls (replicate n HDigest) (Hasher s g true) = Ok (Hasher s g true, replicate n g).
Proof. induction n as [|n IH]; [done|]. cbn [replicate hcalls Digest m_finalized m_digest]. by rewrite IH. Qed.
Lemma hcalls_app l1 l2 h : hcalls (l1 ++ l2) h = (let! a := hcalls l1 h in let! b := hcalls l2 a.1 in Ok (b.1, a.2 ++ b.2)).
Proof.
  revert h. induction l1 as [|[d|] l1 IH]; intros h.
  - cbn. by destruct (hcalls l2 h) as [[]| | |].
  - cbn [app hcalls]. destruct (Update d h); cbn [obind]; [apply IH|done..].
  - cbn [app hcalls]. destruct (Digest h) as [d h']. rewrite IH. destruct (hcalls l1 h') as [[]| | |]; cbn [obind]; [|done..].
    cbn [fst snd]. by destruct (hcalls l2 h0) as [[]| | |].
Qed.
(** Updates, then one digest or more. *)
Lemma digest_is g ds n : exists h, hcalls ((HUpdate <$> ds) ++ replicate (S n) HDigest) (NewMD5 g) = Ok (h, replicate (S n) (md5 (concat_strings ds))).
Proof.
  rewrite hcalls_app. change (NewMD5 g) with (open "" g). rewrite updates_open. cbn [obind fst snd].
  cbn [replicate hcalls Digest m_finalized open m_digest m_ctx]. cbn. rewrite digests_closed. cbn. eexists. done.
Qed.
Lemma update_late g l d rest : HDigest ∈ l -> hcalls (l ++ HUpdate d :: rest) (NewMD5 g) = Abort.
Proof.
  intros H. rewrite hcalls_app.
  assert (G : forall h, HDigest ∈ l \/ m_finalized h = true -> match hcalls l h with Ok a => m_finalized a.1 = true | Abort => True | _ => False end).
  { clear H. induction l as [|[d'|] l IH]; intros h X.
    - destruct X as [X|X]; [by apply elem_of_nil in X|done].
    - cbn [hcalls]. unfold Update. destruct (m_finalized h) eqn:E; [done|]. cbn [obind]. apply IH. left. destruct X as [X|X]; [|done].
      apply elem_of_cons in X as [X|X]; [discriminate X|done].
    - cbn [hcalls]. destruct (Digest h) as [d' h'] eqn:E. assert (m_finalized h' = true).
      { unfold Digest in E. injection E as _ <-. by destruct (m_finalized h) eqn:F. }
      specialize (IH h' (or_intror H)). by destruct (hcalls l h') as [[]| | |]. }
  specialize (G (NewMD5 g) (or_introl H)). destruct (hcalls l (NewMD5 g)) as [[h r]| | |]; [|done..]. cbn [obind fst snd hcalls].
  cbn in G. unfold Update. by rewrite G.
Qed.

(** The object is never used after Digest by src/signature.cc, and the bytes are those of Signature.v. *)
Lemma labels_open labels s g : HashLabels labels (open s g) = Ok (open (UpdateHashLabels ord labels s) g).
Proof.
  unfold HashLabels, UpdateHashLabels. generalize (smap_range (ho_list ord labels)) as l. intros l. revert s.
  induction l as [|kv l IH]; intros s; [done|]. cbn [ofold foldl]. rewrite !update_open. cbn [obind]. rewrite !update_open. cbn [obind].
  rewrite !update_open. cbn [obind]. rewrite update_open. cbn [obind]. rewrite IH. by rewrite <- !sapp_assoc.
Qed.
Lemma report_operation_is g o : ReportOperationSignature g o = Ok (GenerateReportOperationSignature ord md5 o).
Proof.
  unfold ReportOperationSignature. change (NewMD5 g) with (open "" g). rewrite update_open. cbn [obind]. rewrite update_open. cbn [obind]. rewrite update_open. cbn [obind].
  rewrite labels_open. cbn [obind]. unfold GenerateReportOperationSignature, report_operation_bytes. cbn [Digest open m_finalized m_digest m_ctx fst].
  do 3 f_equal. by rewrite <- sapp_assoc.
Qed.
Lemma metric_value_is g mv : ReportMetricValueSignature g mv = Ok (GenerateReportMetricValueSignature ord md5 mv).
Proof. unfold ReportMetricValueSignature. change (NewMD5 g) with (open "" g). by rewrite labels_open. Qed.
Lemma check_request_is g r : CheckRequestSignature g r = Ok (GenerateCheckRequestSignature ord md5 r).
Proof.
  unfold CheckRequestSignature. change (NewMD5 g) with (open "" g). do 4 (rewrite update_open; cbn [obind]). rewrite labels_open. cbn [obind].
  assert (M : forall mvs s, ofold (fun h mv => HashLabels (mv_labels mv) h) (open s g) mvs = Ok (open (foldl (fun h mv => UpdateHashMetricValue ord mv h) s mvs) g)).
  { intros mvs. induction mvs as [|mv mvs IH]; intros s; [done|]. cbn [ofold foldl]. rewrite labels_open. cbn [obind]. by rewrite IH. }
  assert (S : forall l s, ofold (fun h nv => let! h := Update NUL h in let! h := Update nv.1 h in ofold (fun h mv => HashLabels (mv_labels mv) h) h nv.2) (open s g) l =
              Ok (open (foldl (fun h nv => foldl (fun h mv => UpdateHashMetricValue ord mv h) (h +:+ NUL +:+ nv.1) nv.2) s l) g)).
  { intros l. induction l as [|nv l IH]; intros s; [done|]. cbn [ofold foldl]. rewrite update_open. cbn [obind]. rewrite update_open. cbn [obind].
    rewrite M. cbn [obind]. rewrite IH. by rewrite <- sapp_assoc. }
  rewrite S. cbn [obind]. rewrite update_open. cbn [obind]. unfold GenerateCheckRequestSignature, check_request_bytes. cbn [Digest open m_finalized m_digest m_ctx fst].
  do 2 f_equal. f_equal. f_equal. f_equal. by rewrite <- !sapp_assoc.
Qed.
Lemma quota_request_is g r : QuotaRequestSignature g r = Ok (GenerateAllocateQuotaRequestSignature md5 r).
Proof.
  unfold QuotaRequestSignature. change (NewMD5 g) with (open "" g). do 3 (rewrite update_open; cbn [obind]).
  assert (S : forall l s, ofold (fun h n => let! h := Update NUL h in Update n h) (open s g) l = Ok (open (foldl (fun h n => h +:+ NUL +:+ n) s l) g)).
  { intros l. induction l as [|n l IH]; intros s; [done|]. cbn [ofold foldl]. rewrite update_open. cbn [obind]. rewrite update_open. cbn [obind]. rewrite IH. by rewrite <- sapp_assoc. }
  rewrite S. cbn [obind]. unfold GenerateAllocateQuotaRequestSignature, quota_request_bytes. cbn [Digest open m_finalized m_digest m_ctx fst].
  do 3 f_equal. by rewrite <- sapp_assoc.
Qed.

(** DebugString. *)
Lemma digit_value n : (n < 16)%nat -> hex_value (digit n) = Some n.
Proof. intros H. do 16 (destruct n as [|n]; [reflexivity|]). lia. Qed.
Lemma hex_digit a v : hex_value a = Some v -> String.list_ascii_of_string "0123456789abcdef" !! v = Some a.
Proof. destruct a as [b0 b1 b2 b3 b4 b5 b6 b7]. destruct b0, b1, b2, b3, b4, b5, b6, b7; intros H; vm_compute in H; (discriminate H || (injection H as <-; reflexivity)). Qed.
Lemma put_ok p a buf : (p < length buf)%nat -> put p a buf = Ok (<[p := a]> buf).
Proof. intros H. unfold put. by apply Nat.ltb_lt in H as ->. Qed.
Lemma byte_bound b : (nat_of_ascii b < 256)%nat.
Proof. apply nat_ascii_bounded. Qed.
Lemma debug_ok bytes p buf : (p + 2 * length bytes < length buf)%nat ->
  exists buf', debug_loop bytes p buf = Ok ((p + 2 * length bytes)%nat, buf') /\ length buf' = length buf /\
    (forall i, (i < p)%nat -> buf' !! i = buf !! i) /\
    (forall i b, bytes !! i = Some b -> buf' !! (p + 2 * i)%nat = Some (digit (nat_of_ascii b / 16)) /\
                                        buf' !! (p + 2 * i + 1)%nat = Some (digit (nat_of_ascii b mod 16))).
Proof.
  revert p buf. induction bytes as [|b bytes IH]; intros p buf H; cbn [length] in H.
  - exists buf. cbn. split_and!; [by rewrite Nat.add_0_r|done|done|done].
  - cbn [debug_loop]. unfold sprintf_02x. rewrite put_ok by lia. cbn [obind]. rewrite put_ok by (rewrite insert_length; lia). cbn [obind].
    rewrite put_ok by (rewrite !insert_length; lia). cbn [obind].
    set (buf1 := <[(p + 2)%nat := zero]> _). assert (L : length buf1 = length buf) by (unfold buf1; by rewrite !insert_length).
    destruct (IH (p + 2)%nat buf1) as (buf' & E & L' & B & D); [lia|]. exists buf'. split_and!.
    + rewrite E. cbn [length]. do 2 f_equal. lia.
    + congruence.
    + intros i Hi. rewrite B by lia. unfold buf1. rewrite !list_lookup_insert_ne by lia. done.
    + intros [|i] b' Hb; cbn in Hb.
      * injection Hb as <-. rewrite Nat.mul_0_r, Nat.add_0_r. rewrite !B by lia. unfold buf1. split.
        -- rewrite list_lookup_insert_ne by lia. rewrite list_lookup_insert_ne by lia. rewrite list_lookup_insert by lia. done.
        -- rewrite list_lookup_insert_ne by lia. rewrite list_lookup_insert by (rewrite insert_length; lia). done.
      * destruct (D i b' Hb) as [D1 D2]. split; [rewrite <- D1|rewrite <- D2]; f_equal; lia.
Qed.
Lemma debug_string_is buf digest : length buf = 33%nat -> length (String.list_ascii_of_string digest) = 16%nat ->
  exists s, DebugString buf digest = Ok s /\ length (String.list_ascii_of_string s) = 32%nat /\
  forall i b, String.list_ascii_of_string digest !! i = Some b -> exists x y hi lo,
    String.list_ascii_of_string s !! (2 * i)%nat = Some x /\ String.list_ascii_of_string s !! (2 * i + 1)%nat = Some y /\
    hex_value x = Some hi /\ hex_value y = Some lo /\ nat_of_ascii b = (16 * hi + lo)%nat.
Proof.
  intros Hb Hd. unfold DebugString. rewrite Hd. cbn [Nat.eqb]. set (bytes := String.list_ascii_of_string digest) in *.
  destruct (debug_ok bytes 0 buf) as (buf' & E & L & _ & D); [lia|]. rewrite E. cbn [obind fst snd]. rewrite put_ok by lia. cbn [obind].
  eexists. split; [done|]. rewrite String.list_ascii_of_string_of_list_ascii. split; [rewrite take_length, insert_length; lia|].
  intros i b Hi. assert (i < 16)%nat by (apply lookup_lt_Some in Hi; lia). destruct (D i b Hi) as [D1 D2]. cbn [Nat.add] in D1, D2.
  exists (digit (nat_of_ascii b / 16)), (digit (nat_of_ascii b mod 16)), (nat_of_ascii b / 16)%nat, (nat_of_ascii b mod 16)%nat.
  rewrite !lookup_take by lia. rewrite !list_lookup_insert_ne by lia. split_and!; [done|done|apply digit_value|apply digit_value|].
  - pose proof (byte_bound b). apply Nat.div_lt_upper_bound; lia.
  - apply Nat.mod_upper_bound. lia.
  - apply Nat.div_mod. lia.
Qed.
Lemma debug_string_bad buf digest : length (String.list_ascii_of_string digest) <> 16%nat -> DebugString buf digest = Abort.
Proof. intros H. unfold DebugString. by apply Nat.eqb_neq in H as ->. Qed.
Lemma string_bytes_inj s1 s2 : String.list_ascii_of_string s1 = String.list_ascii_of_string s2 -> s1 = s2.
Proof. intros E. rewrite <- (String.string_of_list_ascii_of_string s1), E. apply String.string_of_list_ascii_of_string. Qed.
Lemma debug_string_inj b1 b2 d1 d2 s : length b1 = 33%nat -> length b2 = 33%nat -> DebugString b1 d1 = Ok s -> DebugString b2 d2 = Ok s -> d1 = d2.
Proof.
  intros H1 H2 E1 E2.
  assert (L1 : length (String.list_ascii_of_string d1) = 16%nat).
  { destruct (Nat.eq_dec (length (String.list_ascii_of_string d1)) 16%nat) as [|N]; [done|]. rewrite (debug_string_bad _ _ N) in E1. discriminate E1. }
  assert (L2 : length (String.list_ascii_of_string d2) = 16%nat).
  { destruct (Nat.eq_dec (length (String.list_ascii_of_string d2)) 16%nat) as [|N]; [done|]. rewrite (debug_string_bad _ _ N) in E2. discriminate E2. }
  destruct (debug_string_is _ _ H1 L1) as (s1 & F1 & _ & D1). destruct (debug_string_is _ _ H2 L2) as (s2 & F2 & _ & D2).
  rewrite E1 in F1. injection F1 as <-. rewrite E2 in F2. injection F2 as <-. apply string_bytes_inj. apply list_eq. intros i.
  destruct (String.list_ascii_of_string d1 !! i) as [x|] eqn:X; destruct (String.list_ascii_of_string d2 !! i) as [y|] eqn:Y; [| | |done].
  - destruct (D1 _ _ X) as (p & q & hi & lo & P & Q & Hp & Hq & N). destruct (D2 _ _ Y) as (p' & q' & hi' & lo' & P' & Q' & Hp' & Hq' & N').
    f_equal. rewrite <- (ascii_nat_embedding x), <- (ascii_nat_embedding y). f_equal. congruence.
  - apply lookup_lt_Some in X. apply lookup_ge_None in Y. lia.
  - apply lookup_lt_Some in Y. apply lookup_ge_None in X. lia.
Qed.
End md5.
