(** C77: the MD5 class and the way signatures are computed with it.  The model of the class and the specification are
    in Md5Wrapper.v; [md5] is the digest function of the library, arbitrary in the theorems.  The examples use RFC 1321's
    function (Rfc1321.v) and the digests expected by src/signature_test.cc and utils/md5_test.cc. *)
From Verif Require Import Proto Signature Md5Wrapper Rfc1321.
From Coq Require Import Ascii.
Local Open Scope Z_scope.

(** However the data is split over calls of Update, and however often Digest is asked, the answer is the digest of all
    the data in order. *)
Theorem C77_digest_of_all_data : forall md5 garbage ds n,
  exists h, hcalls md5 ((HUpdate <$> ds) ++ replicate (S n) HDigest) (NewMD5 garbage) =
            Ok (h, replicate (S n) (md5 (concat_strings ds))).
Proof. intros *. apply digest_is. Qed.
Print Assumptions C77_digest_of_all_data.
(** Updating an object whose digest was asked for trips the assertion, whatever happened before. *)
Theorem C77_no_update_after_digest : forall md5 garbage l d rest, HDigest ∈ l ->
  hcalls md5 (l ++ HUpdate d :: rest) (NewMD5 garbage) = Abort.
Proof. intros *. apply update_late. Qed.
Print Assumptions C77_no_update_after_digest.
(** The four signature functions never do that, and what they return is the digest of the bytes that C01-C07 speak
    about, whatever the uninitialised digest buffer held. *)
Theorem C77_signatures_use_it_properly : forall md5 ord garbage,
  (forall o, ReportOperationSignature md5 ord garbage o = Ok (GenerateReportOperationSignature ord md5 o)) /\
  (forall mv, ReportMetricValueSignature md5 ord garbage mv = Ok (GenerateReportMetricValueSignature ord md5 mv)) /\
  (forall r, CheckRequestSignature md5 ord garbage r = Ok (GenerateCheckRequestSignature ord md5 r)) /\
  (forall r, QuotaRequestSignature md5 garbage r = Ok (GenerateAllocateQuotaRequestSignature md5 r)).
Proof.
  intros *. split; [|split; [|split]]; intros x.
  - apply report_operation_is.
  - apply metric_value_is.
  - apply check_request_is.
  - apply quota_request_is.
Qed.
Print Assumptions C77_signatures_use_it_properly.
(** The printable form of a digest of 16 bytes: 32 characters, two lower-case hexadecimal digits for each byte, written
    inside the local buffer of 33 characters; for any other length the assertion trips. *)
Theorem C77_printable_digest : forall buf digest, length buf = 33%nat ->
  (length (String.list_ascii_of_string digest) <> 16%nat -> DebugString buf digest = Abort) /\
  (length (String.list_ascii_of_string digest) = 16%nat ->
   exists s, DebugString buf digest = Ok s /\ length (String.list_ascii_of_string s) = 32%nat /\
   forall i b, String.list_ascii_of_string digest !! i = Some b -> exists x y hi lo,
     String.list_ascii_of_string s !! (2 * i)%nat = Some x /\ String.list_ascii_of_string s !! (2 * i + 1)%nat = Some y /\
     String.list_ascii_of_string "0123456789abcdef" !! hi = Some x /\ String.list_ascii_of_string "0123456789abcdef" !! lo = Some y /\
     nat_of_ascii b = (16 * hi + lo)%nat).
Proof.
  intros * H. split; [apply debug_string_bad|]. intros H0. destruct (debug_string_is _ _ H H0) as (s & E1 & E2 & E3). exists s. split; [done|]. split; [done|]. intros i b Hb.
  destruct (E3 i b Hb) as (x & y & hi & lo & ? & ? & ?%hex_digit & ?%hex_digit & ?). by exists x, y, hi, lo.
Qed.
Print Assumptions C77_printable_digest.
Theorem C77_printable_digest_injective : forall b1 b2 d1 d2 s, length b1 = 33%nat -> length b2 = 33%nat ->
  DebugString b1 d1 = Ok s -> DebugString b2 d2 = Ok s -> d1 = d2.
Proof. intros *. apply debug_string_inj. Qed.
Print Assumptions C77_printable_digest_injective.

(** utils/md5_test.cc:29-33 and src/signature_test.cc:110-142. *)
Definition junk : list ascii := replicate 33 "x"%char.
Definition printed (r : outcome string) : outcome string := let! d := r in DebugString junk d.
Definition t_op (labels : gmap string string) : operation :=
  Operation "" "some-operation-name" "project_id:some-project-id" None None labels [] [] LOW "".
Definition t_mv (labels : gmap string string) : metric_value := MetricValue labels None None (VInt64 1000).
Definition t_check : check_request :=
  CheckRequest "chemisttest.googleapis.com"
    (Some (Operation "some-id" "some-operation-name" "project:proven-catcher-789"
       (Some (Ts 1421429665 653927303)) (Some (Ts 1421429665 653933882))
       (list_to_map [("cloud.googleapis.com/resource_type", "some-resource_type"); ("cloud.googleapis.com/zone", "us-central1-a");
                     ("cloud.googleapis.com/resource_id", "some-resource_id")])%string
       [MetricValueSet "chemisttest.googleapis.com/chemisttest/memory_hour_usage"
          [MetricValue {[ "servicecontrol.googleapis.com/consumer_id"%string := "some-consumer_id"%string ]}
             (Some (Ts 1421429365 340407982)) (Some (Ts 1421429665 654013127)) (VInt64 380)]]
       [] LOW "")) "" "".
Example C77_example :
  printed (let! r := DigestOf rfc1321 ("Test Data" +:+ NUL) (NewMD5 "junk") in Ok r.1) = Ok "0a22b2ac9d829ff3605d81d5ae5e9d16"%string /\
  printed (ReportOperationSignature rfc1321 default_order "junk" (t_op ∅)) = Ok "d056b16b88b914b40cd5a82470bc02a5"%string /\
  printed (ReportOperationSignature rfc1321 default_order "junk"
    (t_op (list_to_map [("cloud.googleapis.com/region", "us-central1"); ("cloud.googleapis.com/resource_type", "instance")])%string)) =
    Ok "93bc5c613fc4eabb2a40042f7f73f671"%string /\
  printed (ReportMetricValueSignature rfc1321 default_order "junk" (t_mv ∅)) = Ok "d41d8cd98f00b204e9800998ecf8427e"%string /\
  printed (ReportMetricValueSignature rfc1321 default_order "junk" (t_mv {[ "/type"%string := "disk"%string ]})) = Ok "3f6bc74c0a4be6b6eeaab1faac30a365"%string /\
  printed (CheckRequestSignature rfc1321 default_order "junk" t_check) = Ok "4deb431384f1dbb616b59e00db496347"%string.
Proof. repeat split; vm_compute; reflexivity. Qed.
(** RFC 1321, A.5: the test suite. *)
Example C77_rfc_example : printed (Ok (rfc1321 "")) = Ok "d41d8cd98f00b204e9800998ecf8427e"%string /\
  printed (Ok (rfc1321 "message digest")) = Ok "f96b697d7cb7938d525a2f31aaf161d0"%string /\
  printed (Ok (rfc1321 "12345678901234567890123456789012345678901234567890123456789012345678901234567890")) = Ok "57edf4a22be3c955ac49da2e2107b67a"%string /\
  (forall s, exists p, printed (Ok (rfc1321 s)) = Ok p) /\
  hcalls rfc1321 [HDigest; HUpdate "x"] (NewMD5 "") = Abort.
Proof.
  split; [vm_compute; reflexivity|]. split; [vm_compute; reflexivity|]. split; [vm_compute; reflexivity|]. split; [|reflexivity].
  intros s. destruct (debug_string_is junk (rfc1321 s) eq_refl (rfc1321_length s)) as (p & E & _). exists p. exact E.
Qed.
