(** C79-C81: the transport of the sample program, as far as the client's users see it. *)
From Verif Require Import Base Proto Signature CheckAgg CheckAggSpec Client ClientSpec ClientRun PropsCheck PropsClient Sample.
From Coq Require Import Ascii.
From stdpp Require Import list.
Local Open Scope Z_scope.

(** ** C79 *)
(** None of the eleven codes with a status of their own gets it. *)
Theorem C79_named_codes_refuted : forall code, code ∈ named_codes -> ConvertHttpCodeToStatus code <> named_status code.
Proof. exact named_wrong. Qed.
Print Assumptions C79_named_codes_refuted.
(** All others get theirs. *)
Theorem C79_other_codes_partial : forall code, code ∉ named_codes -> ConvertHttpCodeToStatus code = named_status code.
Proof. exact other_codes. Qed.
Print Assumptions C79_other_codes_partial.
(** Missing: the statuses of the named codes.  Proved: every code gets the status of its class, and no error is OK. *)
Theorem C79_class_partial : forall code,
  (ConvertHttpCodeToStatus code = SOk <-> 200 <= code < 300) /\
  (400 <= code < 500 -> ConvertHttpCodeToStatus code = SOther 9) /\
  (500 <= code < 600 -> ConvertHttpCodeToStatus code = SInternal) /\
  (code < 200 \/ 300 <= code < 400 \/ 600 <= code -> ConvertHttpCodeToStatus code = SOther 2) /\
  (named_status code = SOk <-> 200 <= code < 300).
Proof. exact class_of_code. Qed.
Print Assumptions C79_class_partial.
Example C79_example : ConvertHttpCodeToStatus 403 = SOther 9 /\ named_status 403 = SOther 7 /\
  ConvertHttpCodeToStatus 204 = SOk /\ ConvertHttpCodeToStatus 0 = SOther 2.
Proof. done. Qed.

(** ** C80 *)
(** Whatever the reason for which a check fails, if no body came back then the client is told that it succeeded, with
    an empty response; likewise a report. *)
Theorem C80_failure_is_told_as_success_refuted : forall network t serialize parse left_over q (r0 r : check_response),
  parse EmptyString = Some r ->
  ha_result (network (post_of (lt_check_url t) (lt_auth t) (serialize q))) <> 0 ->
  ha_parts (network (post_of (lt_check_url t) (lt_auth t) (serialize q))) = [] ->
  SampleCheck network t serialize parse left_over q r0 = (SOk, r).
Proof. exact failed_check. Qed.
Print Assumptions C80_failure_is_told_as_success_refuted.
(** A server that answers 403 to a check: the client caches the empty response, and the next check of the same kind is
    let through without asking the server. *)
Definition denying (p : http_post) : http_answer := HttpAnswer [] 22 403.
Definition sample_t : curl_transport := NewCurlTransport "https://servicecontrol.googleapis.com" "svc" "token".
Definition parse_any (s : string) : option check_response := if String.eqb s "" then Some (CheckResponse [] "") else None.
Definition denied : status_code * check_response :=
  SampleCheck denying sample_t (fun _ => "request"%string) parse_any (fun _ r => r) (ck_req "1" "a") (CheckResponse [] "").
Definition denied_run : list act :=
  cl_first ++ [Do 0 (Complete 0 denied.1 (RpCheck denied.2))] ++ cl_fin ++ [Do 0 (Call (cl_check "2" "a"))] ++ cl_fin.
Theorem C80_denied_check_passes_refuted : exists ths w,
  cl_reach (ths, w) /\ nothing_running ths /\
  (exists t, ETransport t 0 (FromCall 0) (RqCheck (ck_req "1" "a")) ∈ w_trace w) /\
  (exists t b, ECompleted t 0 denied.1 (RpCheck denied.2) b ∈ w_trace w) /\
  (exists t, EDone t 0 SOk (RpCheck (CheckResponse [] "")) ∈ w_trace w) /\
  (exists t, EDone t 1 SOk (RpCheck (CheckResponse [] "")) ∈ w_trace w) /\
  sent (w_trace w) = [0%nat].
Proof.
  exists (cl_after denied_run).1, (cl_after denied_run).2. split; [cl_reaches|].
  assert (E : forall n ev, w_trace (cl_after denied_run).2 !! n = Some ev -> ev ∈ w_trace (cl_after denied_run).2) by (intros n ev; apply elem_of_list_lookup_2).
  split; [vm_compute; by repeat constructor|].
  split; [exists 0%nat; apply (E 3%nat); vm_compute; reflexivity|].
  split; [exists 0%nat, false; apply (E 5%nat); vm_compute; reflexivity|].
  split; [exists 0%nat; apply (E 8%nat); vm_compute; reflexivity|].
  split; [exists 0%nat; apply (E 12%nat); vm_compute; reflexivity|].
  vm_compute; reflexivity.
Qed.
Print Assumptions C80_denied_check_passes_refuted.
(** Missing: the outcome of the exchange and the HTTP code play no role.  Proved: the status is OK exactly if the parts
    received make up a response, which is then the one the client gets; and the call posts one request. *)
Theorem C80_status_is_parse_partial : forall network t serialize parse left_over q (r0 : check_response),
  let body := joined (ha_parts (network (post_of (lt_check_url t) (lt_auth t) (serialize q)))) in
  SampleCheck network t serialize parse left_over q r0 =
  match parse body with Some r => (SOk, r) | None => (SInvalidArgument, left_over body r0) end.
Proof. intros *. apply sample_call_is. Qed.
Print Assumptions C80_status_is_parse_partial.
Theorem C80_report_status_is_parse_partial : forall (R : Type) network t serialize (parse : string -> option R) left_over q (r0 : R),
  let body := joined (ha_parts (network (post_of (lt_report_url t) (lt_auth t) (serialize q)))) in
  SampleReport network t serialize parse left_over q r0 =
  match parse body with Some r => (SOk, r) | None => (SInvalidArgument, left_over body r0) end.
Proof. intros *. apply sample_call_is. Qed.
Print Assumptions C80_report_status_is_parse_partial.
Example C80_example : denied = (SOk, CheckResponse [] "") /\ ConvertHttpCodeToStatus 403 <> SOk.
Proof. done. Qed.

(** ** C81 *)
(** A request whose serialised form contains a NUL byte is cut off there. *)
Theorem C81_cut_at_nul_refuted : forall url auth body b1 b2, body = b1 +:+ String.String zero b2 -> has_nul b1 = false ->
  hp_body (post_of url auth body) = b1 /\ hp_body (post_of url auth body) <> body.
Proof. exact cut_at_nul. Qed.
Print Assumptions C81_cut_at_nul_refuted.
(** Missing: bodies with a NUL byte.  Proved: all others, and the address and headers, are posted as they are. *)
Theorem C81_posted_whole_partial : forall server service token body,
  let t := NewCurlTransport server service token in
  has_nul server = false -> has_nul service = false -> has_nul token = false ->
  forall url, url = lt_check_url t \/ url = lt_report_url t ->
  (hp_body (post_of url (lt_auth t) body) = body <-> has_nul body = false) /\
  hp_url (post_of url (lt_auth t) body) = url /\
  hp_headers (post_of url (lt_auth t) body) = ["Content-Type: application/x-protobuf"%string; "X-GFE-SSL: yes"%string; ("Authorization: Bearer " +:+ token)%string].
Proof. exact posted_all. Qed.
Print Assumptions C81_posted_whole_partial.
(** A check goes to the address of the service's checks and a report to that of its reports: what the network would do
    with any other post plays no role. *)
Theorem C81_check_address : forall network network' server service token serialize parse left_over q (r0 : check_response),
  let p := post_of (server +:+ "/v1/services/" +:+ service +:+ ":check") ("Authorization: Bearer " +:+ token) (serialize q) in
  network p = network' p ->
  SampleCheck network (NewCurlTransport server service token) serialize parse left_over q r0 =
  SampleCheck network' (NewCurlTransport server service token) serialize parse left_over q r0.
Proof. intros *. apply own_post. Qed.
Print Assumptions C81_check_address.
Theorem C81_report_address : forall (R : Type) network network' server service token serialize (parse : string -> option R) left_over q (r0 : R),
  let p := post_of (server +:+ "/v1/services/" +:+ service +:+ ":report") ("Authorization: Bearer " +:+ token) (serialize q) in
  network p = network' p ->
  SampleReport network (NewCurlTransport server service token) serialize parse left_over q r0 =
  SampleReport network' (NewCurlTransport server service token) serialize parse left_over q r0.
Proof. intros *. apply own_post. Qed.
Print Assumptions C81_report_address.
Example C81_example : lt_check_url sample_t = "https://servicecontrol.googleapis.com/v1/services/svc:check"%string /\
  lt_report_url sample_t = "https://servicecontrol.googleapis.com/v1/services/svc:report"%string /\
  has_nul (lt_check_url sample_t) = false /\
  hp_body (post_of (lt_check_url sample_t) (lt_auth sample_t) (String.String "a" (String.String zero "b"))) = "a"%string.
Proof. done. Qed.
