(** Property C96 (properties.jsonl): a write counted as successful was taken by the server. *)
From Verif Require Import Base Retry Redirect.
Local Open Scope Z_scope.

(** False: after a 301, 302 or 303 the client asks again with GET and without the data, and takes the answer for that of the write. *)
Theorem C96_refuted : forall code url chunk, In code [301; 302; 303] ->
  exists server resolve tr, writeTo server resolve url chunk = (tr, WOk) /\ ~ delivered chunk tr.
Proof.
  intros code url chunk Hc.
  exists (fun done _ => match done with [] => Some (code, lit "/login") | _ => Some (200, []) end), (fun _ l => Some l).
  eexists. assert (E : code = 301 \/ code = 302 \/ code = 303) by (cbn [In] in Hc; lia).
  destruct E as [->|[->| ->]]; (split; [unfold writeTo; cbn; reflexivity|]); intros (req & a & Hi & M & _ & c & l & Ea & R); cbn [In app] in Hi;
  (destruct Hi as [Hi|[Hi|[]]]; injection Hi as <- <-; [injection Ea as <- _; lia|discriminate M]).
Qed.

(** Exactly: a write is successful when some request was answered with 2xx; and then the server took the data exactly
    when no answer was a redirect of that kind. *)
Theorem C96_exact_partial : forall server resolve url chunk tr o, writeTo server resolve url chunk = (tr, o) ->
  (o = WOk <-> Exists (fun e => success (snd e)) tr) /\
  (o = WOk -> (delivered chunk tr <-> Forall (fun e => ~ drops_data e) tr)).
Proof.
  intros server resolve url chunk tr o H. destruct (writeTo_spec server resolve url chunk tr o H) as (_ & _ & [(-> & pre & lr & a & -> & Np & Sa & K)|(Ho & Nt)]).
  - split; [split; [intros _; apply Exists_exists; exists (lr, a); split; [apply in_app_iff; right; left; reflexivity|exact Sa]|reflexivity]|].
    intros _. destruct K as [(M & B & Nd)|(M & Nd)].
    + split; [intros _; exact Nd|]. intros _. exists lr, a. split; [apply in_app_iff; right; left; reflexivity|]. auto.
    + split; [|contradiction]. intros (req & a' & Hi & M' & _ & Sa'). exfalso. apply in_app_iff in Hi. destruct Hi as [Hi|[Hi|[]]].
      * unfold no_success in Np. rewrite Forall_forall in Np. exact (Np _ Hi Sa').
      * injection Hi as <- _. exact (M M').
  - split; [|contradiction]. split; [contradiction|]. intros X. exfalso. apply Exists_exists in X. destruct X as (e & Hi & Se). unfold no_success in Nt. rewrite Forall_forall in Nt. exact (Nt _ Hi Se).
Qed.

(** A server that never redirects in this way: success means that it took exactly the data, once. *)
Theorem C96_delivered_partial : forall server resolve url chunk tr,
  (forall done req, ~ drops_data (req, server done req)) -> writeTo server resolve url chunk = (tr, WOk) ->
  delivered chunk tr /\ length (filter took tr) = 1%nat.
Proof.
  intros server resolve url chunk tr Hs H. destruct (writeTo_spec server resolve url chunk tr WOk H) as (_ & (more & Ft) & [(_ & pre & lr & a & -> & Np & Sa & K)|(Ho & _)]); [|contradiction].
  assert (Cnt : forall l, no_success l -> filter took l = []).
  { induction 1 as [|e l He _ IH]; [reflexivity|]. cbn [filter]. unfold took at 1. destruct (snd e) as [[c l0]|] eqn:E; [|exact IH]. destruct ((200 <=? c) && (c <=? 299)) eqn:R; [|exact IH].
    exfalso. apply He. exists c, l0. split; [reflexivity|lia]. }
  split.
  - destruct K as [(M & B & _)|(M & Nd)]; [exists lr, a; split; [apply in_app_iff; right; left; reflexivity|auto]|].
    exfalso. apply Nd. apply Forall_forall. intros [req b] Hi. clear - Hs H Hi.
    assert (All : forall fuel body done req0 tr r, Forall (fun e => ~ drops_data e) done -> doLoop server resolve fuel body done req0 = (tr, r) -> Forall (fun e => ~ drops_data e) tr).
    { induction fuel as [|f IH]; intros body done req0 tr r D E; cbn [doLoop] in E; [injection E as <- _; exact D|].
      assert (D' : Forall (fun e => ~ drops_data e) (done ++ [(req0, server done req0)])) by (apply Forall_app; split; [exact D|]; constructor; [apply Hs|constructor]).
      destruct (server done req0) as [[code loc]|]; [|injection E as <- _; exact D'].
      destruct (redirectBehavior _ _ _) as [[m w]|]; [|injection E as <- _; exact D']. destruct loc; [injection E as <- _; exact D'|].
      destruct (resolve _ _); [|injection E as <- _; exact D']. destruct (Nat.leb _ _); [injection E as <- _; exact D'|]. exact (IH _ _ _ _ _ D' E). }
    unfold writeTo in H. destruct (doLoop server resolve 10 chunk [] (HReq POST url chunk)) as [tr' r] eqn:E. injection H as Et _.
    specialize (All _ _ _ _ _ _ (Forall_nil _) E). rewrite Forall_forall in All. apply All. rewrite Et. exact Hi.
  - rewrite filter_app. pose proof (Cnt pre Np) as Cp. unfold exchange in *. rewrite Cp. cbn [filter app]. unfold took. cbn [snd]. destruct Sa as (c & l & -> & R). replace ((200 <=? c) && (c <=? 299)) with true by lia. reflexivity.
Qed.

(** A write begins with a POST of the data to the configured URL and makes at most ten requests. *)
Theorem C96_requests : forall server resolve url chunk tr o, writeTo server resolve url chunk = (tr, o) ->
  (length tr <= 10)%nat /\ exists more, tr = (HReq (lit "POST") url chunk, server [] (HReq (lit "POST") url chunk)) :: more.
Proof. intros server resolve url chunk tr o H. destruct (writeTo_spec server resolve url chunk tr o H) as ((_ & L) & F & _). auto. Qed.

(** What follows a redirect: after a 301, 302 or 303 a GET without data; otherwise the same method with the data. *)
Theorem C96_next_request : forall server resolve url chunk tr o pre e1 req a post, writeTo server resolve url chunk = (tr, o) ->
  tr = pre ++ e1 :: (req, a) :: post ->
  (drops_data e1 -> h_method req = lit "GET" /\ h_body req = []) /\
  (~ drops_data e1 -> h_method req = h_method (fst e1) /\ h_body req = chunk /\ exists loc, snd e1 = Some (307, loc) \/ snd e1 = Some (308, loc)).
Proof.
  intros server resolve url chunk tr o pre e1 req a post H Et. unfold writeTo in H.
  destruct (doLoop server resolve 10 chunk [] (HReq POST url chunk)) as [tr' r] eqn:E. injection H as -> _.
  exact (next_request server resolve url chunk tr r pre e1 req a post E Et).
Qed.

Print Assumptions C96_refuted.
Print Assumptions C96_exact_partial.
Print Assumptions C96_delivered_partial.
Print Assumptions C96_requests.
Print Assumptions C96_next_request.

(** A server that has moved: the data are sent again and taken there. *)
Definition moved (done : list exchange) (req : hreq) : answer :=
  if beqs (h_url req) (lit "http://a/write") then Some (307, lit "http://b/write") else Some (204, []).
Example C96_case : writeTo moved (fun _ l => Some l) (lit "http://a/write") (lit "cpu x=1") =
  ([(HReq (lit "POST") (lit "http://a/write") (lit "cpu x=1"), Some (307, lit "http://b/write"));
    (HReq (lit "POST") (lit "http://b/write") (lit "cpu x=1"), Some (204, []))], WOk) /\
  (forall done req, ~ drops_data (req, moved done req)).
Proof.
  split; [vm_compute; reflexivity|]. intros done req (c & l & E & Hc). unfold moved in E. cbn [snd] in E. destruct (beqs _ _); injection E as <- _; cbn [In] in Hc; lia.
Qed.
(** A loop of redirects is given up after ten requests, and retried later. *)
Example C96_case_loop : let (tr, o) := writeTo (fun _ _ => Some (308, lit "x")) (fun _ l => Some l) (lit "x") (lit "d") in length tr = 10%nat /\ o = WTemp.
Proof. vm_compute. auto. Qed.
