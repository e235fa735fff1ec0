(** Model of sample/transport/http_transport.h and http_transport.cc: the transport over HTTP that the sample program
    gives to the client, and that users start from.

    Not modelled: libcurl itself (what it does with a request is an argument), protobuf parsing (an argument), output to
    std::cout.  The detached threads and the lifetime of what they use are in SampleThreads.v. *)
From Verif Require Import Base Proto Signature.
From Coq Require Import Ascii.
From stdpp Require Import list.
Local Open Scope Z_scope.

(** google::protobuf::util::Status is its code; messages are dropped.  The numbers are those of google.rpc.Code. *)
Definition kCancelled := SOther 1.
Definition kUnknown := SOther 2.
Definition kDeadlineExceeded := SOther 4.
Definition kPermissionDenied := SOther 7.
Definition kResourceExhausted := SOther 8.
Definition kFailedPrecondition := SOther 9.
Definition kAborted := SOther 10.
Definition kUnimplemented := SOther 12.
Definition kUnavailable := SOther 14.
Definition kUnauthenticated := SOther 16.

(** A C++ switch whose cases, in this order, assign to one variable: control enters at the first case with the label
    and goes on through the assignments below it, unless a break is reached ([true]); then it runs [default], which is
    last. *)
Fixpoint switch_from (body : list (Z * status_code * bool)) (dflt : status_code) (s : status_code) : status_code :=
  match body with
  | [] => dflt
  | (_, s', brk) :: body' => if brk : bool then s' else switch_from body' dflt s'
  end.
Fixpoint switch (code : Z) (body : list (Z * status_code * bool)) (dflt : status_code) (s : status_code) : status_code :=
  match body with
  | [] => dflt
  | (l, s', brk) :: body' => if code =? l then switch_from body dflt s else switch code body' dflt s
  end.

(** sample/transport/http_transport.cc:40-65 the cases of ConvertHttpCodeToStatus, none of which ends in a break. *)
Definition http_cases : list (Z * status_code * bool) :=
  [(400, SInvalidArgument, false); (403, kPermissionDenied, false); (404, SNotFound, false); (409, kAborted, false);
   (416, SOutOfRange, false); (429, kResourceExhausted, false); (499, kCancelled, false); (504, kDeadlineExceeded, false);
   (501, kUnimplemented, false); (503, kUnavailable, false); (401, kUnauthenticated, false)].
(** sample/transport/http_transport.cc:66-77 its default. *)
Definition http_default (code : Z) : status_code :=
  if (200 <=? code) && (code <? 300) then SOk
  else if (400 <=? code) && (code <? 500) then kFailedPrecondition
  else if (500 <=? code) && (code <? 600) then SInternal
  else kUnknown.
(** sample/transport/http_transport.cc:37-80 ConvertHttpCodeToStatus. *)
Definition ConvertHttpCodeToStatus (code : Z) : status_code := switch code http_cases (http_default code) SOk.

(** sample/transport/http_transport.h:40-48 the constructor. *)
Record curl_transport := CurlTransport { lt_auth : string; lt_check_url : string; lt_report_url : string }.
Definition NewCurlTransport (server_url service_name token : string) : curl_transport :=
  CurlTransport ("Authorization: Bearer " +:+ token)
    (server_url +:+ "/v1/services/" +:+ service_name +:+ ":check") (server_url +:+ "/v1/services/" +:+ service_name +:+ ":report").

(** A NUL-terminated string as the callee sees it. *)
Fixpoint c_string (s : string) : string :=
  match s with
  | EmptyString => EmptyString
  | String.String a s' => if decide (a = zero) then EmptyString else String.String a (c_string s')
  end.

(** What libcurl is asked to post: address, headers and body.  The body is given by CURLOPT_POSTFIELDS without
    CURLOPT_POSTFIELDSIZE, so that libcurl takes its length with strlen. *)
Record http_post := HttpPost { hp_url : string; hp_headers : list string; hp_body : string }.
(** What libcurl does with it: the parts of the answer given to CURLOPT_WRITEFUNCTION, the result of
    curl_easy_perform (0 is CURLE_OK) and the HTTP code of the answer (0 if there was none). *)
Record http_answer := HttpAnswer { ha_parts : list string; ha_result : Z; ha_code : Z }.

(** sample/transport/http_transport.cc:95-118 the options set by SendHttp. *)
Definition post_of (url auth_header request_body : string) : http_post :=
  HttpPost (c_string url) ["Content-Type: application/x-protobuf"%string; "X-GFE-SSL: yes"%string; c_string auth_header] (c_string request_body).

Section transport.
Variable network : http_post -> http_answer.

(** sample/transport/http_transport.cc:82-90 ResultBodyCallback. *)
Definition ResultBodyCallback (body data : string) : string := body +:+ data.

(** sample/transport/http_transport.cc:92-131 SendHttp, with the body of the answer as second component.  The result
    of the conversion (126) is stored in a second variable of the same name, which ends with its block. *)
Definition SendHttp (url auth_header request_body : string) : status_code * string :=
  let a := network (post_of url auth_header request_body) in
  let response_body := foldl ResultBodyCallback EmptyString (ha_parts a) in
  let status := SOk in
  let status_in_block := if ha_result a =? 0 then None else Some (ConvertHttpCodeToStatus (ha_code a)) in
  (status, response_body).

Section call.
(** The kind of response, its ParseFromString, and the parts of a message that a failed parse leaves behind. *)
Context {R : Type}.
Variable parse : string -> option R.
Variable left_over : string -> R -> R.

(** sample/transport/http_transport.cc:142-158, 169-184 the body of the thread: the status given to on_done and the
    response as it is then. *)
Definition sample_call (url auth : string) (request_body : string) (response : R) : status_code * R :=
  let '(status, response_body) := SendHttp url auth request_body in
  if status_eqb status SOk then
    match parse response_body with
    | Some r => (status, r)
    | None => (SInvalidArgument, left_over response_body response)
    end
  else (status, response).
End call.

(** sample/transport/http_transport.cc:135-160 Check, 162-186 Report; [serialize] is SerializeToString. *)
Definition SampleCheck (t : curl_transport) (serialize : check_request -> string) (parse : string -> option check_response)
    (left_over : string -> check_response -> check_response) (q : check_request) (response : check_response) : status_code * check_response :=
  sample_call parse left_over (lt_check_url t) (lt_auth t) (serialize q) response.
Definition SampleReport {R : Type} (t : curl_transport) (serialize : report_request -> string) (parse : string -> option R)
    (left_over : string -> R -> R) (q : report_request) (response : R) : status_code * R :=
  sample_call parse left_over (lt_report_url t) (lt_auth t) (serialize q) response.
End transport.

(** ** Specification *)
(** The status that the names of the cases stand for: that of google.rpc.Code for eleven HTTP codes, and for the others
    one for each class of codes.  [SOther] has the number of google.rpc.Code: 1 CANCELLED, 2 UNKNOWN, 4 DEADLINE_EXCEEDED,
    7 PERMISSION_DENIED, 8 RESOURCE_EXHAUSTED, 9 FAILED_PRECONDITION, 10 ABORTED, 12 UNIMPLEMENTED, 14 UNAVAILABLE, 16 UNAUTHENTICATED. *)
Definition named_status (code : Z) : status_code :=
  if code =? 400 then SInvalidArgument else if code =? 401 then SOther 16 else if code =? 403 then SOther 7
  else if code =? 404 then SNotFound else if code =? 409 then SOther 10 else if code =? 416 then SOutOfRange
  else if code =? 429 then SOther 8 else if code =? 499 then SOther 1 else if code =? 501 then SOther 12
  else if code =? 503 then SOther 14 else if code =? 504 then SOther 4
  else match code / 100 with 2 => SOk | 4 => SOther 9 | 5 => SInternal | _ => SOther 2 end.
Definition named_codes : list Z := [400; 401; 403; 404; 409; 416; 429; 499; 501; 503; 504].
Fixpoint has_nul (s : string) : bool :=
  match s with EmptyString => false | String.String a s' => bool_decide (a = zero) || has_nul s' end.
Fixpoint joined (l : list string) : string := match l with [] => EmptyString | s :: l' => s +:+ joined l' end.

(** ** Proofs *)
Lemma switch_from_default body d s : Forall (fun c : Z * status_code * bool => c.2 = false) body -> switch_from body d s = d.
Proof. intros H. revert s. induction H as [|[[l s'] b] body Hb _ IH]; intros s; [done|]. cbn in *. rewrite Hb. apply IH. Qed.
Lemma switch_default code body d s : Forall (fun c : Z * status_code * bool => c.2 = false) body -> switch code body d s = d.
Proof.
  intros H. induction H as [|[[l s'] b] body Hb H IH]; [done|]. cbn [switch]. destruct (code =? l); [|exact IH]. apply switch_from_default. by constructor.
Qed.
Lemma convert_is code : ConvertHttpCodeToStatus code = http_default code.
Proof. apply switch_default. repeat constructor. Qed.
Lemma convert_ok code : ConvertHttpCodeToStatus code = SOk <-> 200 <= code < 300.
Proof.
  rewrite convert_is. unfold http_default. destruct (Z.leb_spec 200 code), (Z.ltb_spec code 300); cbn; split; intros X; try done; try lia.
  all: revert X; repeat case_match; done.
Qed.
Lemma c_string_same s : c_string s = s <-> has_nul s = false.
Proof.
  induction s as [|a s IH]; [done|]. cbn. destruct (decide (a = zero)) as [->|N].
  - split; [done|]. by rewrite bool_decide_eq_true_2 by done.
  - rewrite bool_decide_eq_false_2 by done. cbn. rewrite <- IH. split; [by intros [= ->]|by intros ->].
Qed.
Lemma parts_joined l b : foldl ResultBodyCallback b l = b +:+ joined l.
Proof.
  revert b. induction l as [|s l IH]; intros b; cbn.
  - induction b as [|a b IHb]; [done|]. exact (f_equal (String.String a) IHb).
  - rewrite IH. unfold ResultBodyCallback. clear IH. induction b as [|a b IHb]; [done|]. exact (f_equal (String.String a) IHb).
Qed.

(** What a call reports, from what the network did with its one post. *)
Lemma sample_call_is {R} network (parse : string -> option R) lo url auth body r0 :
  sample_call network parse lo url auth body r0 =
  match parse (joined (ha_parts (network (post_of url auth body)))) with
  | Some r => (SOk, r)
  | None => (SInvalidArgument, lo (joined (ha_parts (network (post_of url auth body)))) r0)
  end.
Proof. unfold sample_call, SendHttp. rewrite parts_joined. done. Qed.
Lemma sapp_nul a b : has_nul (a +:+ b) = has_nul a || has_nul b.
Proof. induction a as [|x a IH]; [done|]. cbn [has_nul]. rewrite <- orb_assoc, <- IH. done. Qed.
Lemma posted_whole url auth body : (hp_body (post_of url auth body) = body <-> has_nul body = false) /\
  (has_nul url = false -> hp_url (post_of url auth body) = url) /\
  (has_nul auth = false -> hp_headers (post_of url auth body) = ["Content-Type: application/x-protobuf"%string; "X-GFE-SSL: yes"%string; auth]).
Proof.
  split_and!; [apply c_string_same|intros H; by apply c_string_same|]. intros H. cbn. by rewrite (proj2 (c_string_same auth) H).
Qed.
Lemma posted_prefix url auth body b1 b2 : body = b1 +:+ String.String zero b2 -> has_nul b1 = false -> hp_body (post_of url auth body) = b1.
Proof.
  intros -> H. cbn. induction b1 as [|a b IH]; [done|]. cbn [has_nul] in H. apply orb_false_elim in H as [H1 H2]. apply bool_decide_eq_false in H1.
  change (c_string (String.String a (b +:+ String.String zero b2)) = String.String a b). cbn. rewrite decide_False by done. by rewrite IH.
Qed.
Lemma named_wrong code : code ∈ named_codes -> ConvertHttpCodeToStatus code <> named_status code.
Proof. intros H. repeat (apply elem_of_cons in H as [->|H]; [by vm_compute|]). by apply elem_of_nil in H. Qed.
Lemma other_codes code : code ∉ named_codes -> ConvertHttpCodeToStatus code = named_status code.
Proof.
  intros H. rewrite convert_is. unfold named_codes in H. rewrite !not_elem_of_cons in H.
  destruct H as (?&?&?&?&?&?&?&?&?&?&?&_). unfold named_status.
  repeat match goal with N : code <> ?x |- context [code =? ?x] => rewrite (proj2 (Z.eqb_neq code x) N) end.
  unfold http_default.
  destruct (Z.leb_spec 200 code), (Z.ltb_spec code 300); cbn [andb].
  1: { by replace (code / 100) with 2 by (apply Z.div_unique with (code - 200); lia). }
  all: destruct (Z.leb_spec 400 code), (Z.ltb_spec code 500); cbn [andb]; try lia;
    try by replace (code / 100) with 4 by (apply Z.div_unique with (code - 400); lia).
  all: destruct (Z.leb_spec 500 code), (Z.ltb_spec code 600); cbn [andb]; try lia;
    try by replace (code / 100) with 5 by (apply Z.div_unique with (code - 500); lia).
  all: assert (code / 100 <> 2 /\ code / 100 <> 4 /\ code / 100 <> 5) as (N2 & N4 & N5)
    by (pose proof (Z.div_mod code 100); pose proof (Z.mod_pos_bound code 100); lia);
    destruct (code / 100) as [|p|p]; [done| |done]; do 3 (destruct p as [p|p|]; try done).
Qed.
Lemma class_of_code code :
  (ConvertHttpCodeToStatus code = SOk <-> 200 <= code < 300) /\
  (400 <= code < 500 -> ConvertHttpCodeToStatus code = kFailedPrecondition) /\
  (500 <= code < 600 -> ConvertHttpCodeToStatus code = SInternal) /\
  (code < 200 \/ 300 <= code < 400 \/ 600 <= code -> ConvertHttpCodeToStatus code = kUnknown) /\
  (named_status code = SOk <-> 200 <= code < 300).
Proof.
  split; [apply convert_ok|]. rewrite convert_is.
  assert (X : named_status code = SOk <-> 200 <= code < 300).
  { rewrite <- convert_ok, convert_is. destruct (decide (code ∈ named_codes)) as [H|H].
    - repeat (apply elem_of_cons in H as [->|H]; [by vm_compute|]). by apply elem_of_nil in H.
    - by rewrite <- convert_is, other_codes. }
  split_and!; [| | |done]; clear X; unfold http_default; intros H;
    destruct (Z.leb_spec 200 code), (Z.ltb_spec code 300), (Z.leb_spec 400 code), (Z.ltb_spec code 500), (Z.leb_spec 500 code), (Z.ltb_spec code 600); cbn; try done; lia.
Qed.
Lemma failed_check network t serialize parse left_over q (r0 r : check_response) :
  parse EmptyString = Some r ->
  ha_result (network (post_of (lt_check_url t) (lt_auth t) (serialize q))) <> 0 ->
  ha_parts (network (post_of (lt_check_url t) (lt_auth t) (serialize q))) = [] ->
  SampleCheck network t serialize parse left_over q r0 = (SOk, r).
Proof. intros H _ E. unfold SampleCheck. rewrite sample_call_is, E. cbn. by rewrite H. Qed.
Lemma cut_at_nul url auth body b1 b2 : body = b1 +:+ String.String zero b2 -> has_nul b1 = false ->
  hp_body (post_of url auth body) = b1 /\ hp_body (post_of url auth body) <> body.
Proof.
  intros E H. split; [by eapply posted_prefix|]. rewrite (proj1 (posted_whole url auth body)). rewrite E, sapp_nul, H. done.
Qed.
Lemma posted_all server service token body :
  let t := NewCurlTransport server service token in
  has_nul server = false -> has_nul service = false -> has_nul token = false ->
  forall url, url = lt_check_url t \/ url = lt_report_url t ->
  (hp_body (post_of url (lt_auth t) body) = body <-> has_nul body = false) /\
  hp_url (post_of url (lt_auth t) body) = url /\
  hp_headers (post_of url (lt_auth t) body) = ["Content-Type: application/x-protobuf"%string; "X-GFE-SSL: yes"%string; ("Authorization: Bearer " +:+ token)%string].
Proof.
  intros t H1 H2 H3 url Hu. destruct (posted_whole url (lt_auth t) body) as (A & B & C). split_and!; [done| |].
  - apply B. destruct Hu as [->| ->]; cbn [lt_check_url lt_report_url t NewCurlTransport]; rewrite !sapp_nul, H1, H2; done.
  - apply C. cbn [lt_auth t NewCurlTransport]. by rewrite sapp_nul, H3.
Qed.
Lemma own_post {R : Type} network network' (parse : string -> option R) left_over url auth body r0 :
  network (post_of url auth body) = network' (post_of url auth body) ->
  sample_call network parse left_over url auth body r0 = sample_call network' parse left_over url auth body r0.
Proof. intros H. by rewrite !sample_call_is, H. Qed.
