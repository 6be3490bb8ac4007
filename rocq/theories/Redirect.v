(** One write to InfluxDB including the redirects that http.Client follows.

    writer/influxclient.go:56-83 Write hands the request to http.Client.Do with the default CheckRedirect
    (29-46: none is set).  net/http (Go 1.15, client.go do, redirectBehavior, defaultCheckRedirect) is not in the
    repository and is modelled from knowledge of it.  Not modelled: cookies, the Referer, the copying of headers (a
    redirect to another host loses the credentials), the time limit (a timeout is [None]). *)
From Verif Require Import Base Retry.
Local Open Scope Z_scope.

(** A request on the wire: method, URL and body. *)
Record hreq := HReq { h_method : bytes; h_url : bytes; h_body : bytes }.
(** What came back: nothing, or a status and the Location header (empty if there is none). *)
Definition answer := option (Z * bytes).
Definition exchange := (hreq * answer)%type.

Definition POST : bytes := lit "POST".
Definition GET : bytes := lit "GET".
Definition HEAD : bytes := lit "HEAD".

(** net/http/client.go redirectBehavior: the method of the next request and whether it has the body.  The first request
    has a GetBody, because its body is a bytes.Reader (writer/influxclient.go:57). *)
Definition redirectBehavior (method : bytes) (code : Z) (location : bytes) : option (bytes * bool) :=
  if (code =? 301) || (code =? 302) || (code =? 303) then
    Some (if negb (beqs method GET) && negb (beqs method HEAD) then GET else method, false)
  else if (code =? 307) || (code =? 308) then
    match location with [] => None | _ => Some (method, true) end
  else None.

Section Client.
  (** The servers: an answer for each request, given everything before. *)
  Variable server : list exchange -> hreq -> answer.
  (** URL.Parse: the URL a Location means, seen from the URL of the request. *)
  Variable resolve : bytes -> bytes -> option bytes.

  (** net/http/client.go do: the loop; [done] is what was exchanged so far.  defaultCheckRedirect stops before the
      eleventh request, so the fuel is enough. *)
  Fixpoint doLoop (fuel : nat) (body : bytes) (done : list exchange) (req : hreq) : list exchange * response :=
    match fuel with
    | O => (done, NoResponse)
    | S f =>
        let a := server done req in
        let done' := done ++ [(req, a)] in
        match a with
        | None => (done', NoResponse)
        | Some (code, loc) =>
            match redirectBehavior (h_method req) code loc with
            | None => (done', Status code)
            | Some (m, withBody) =>
                match loc with
                | [] => (done', NoResponse)
                | _ =>
                    match resolve (h_url req) loc with
                    | None => (done', NoResponse)
                    | Some u =>
                        if Nat.leb 10 (length done') then (done', NoResponse)
                        else doLoop f body done' (HReq m u (if withBody then body else []))
                    end
                end
            end
        end
    end.

  (** writer/influxclient.go:56-83 Write of [chunk] to [url]: everything exchanged, and the error. *)
  Definition writeTo (url chunk : bytes) : list exchange * outcome :=
    let (tr, r) := doLoop 10 chunk [] (HReq POST url chunk) in (tr, Write r).
End Client.

(** ** Specification *)

(** The server took the chunk: a POST with it was answered with a 2xx status. *)
Definition success (a : answer) : Prop := exists code loc, a = Some (code, loc) /\ 200 <= code <= 299.
Definition delivered (chunk : bytes) (tr : list exchange) : Prop :=
  exists req a, In (req, a) tr /\ h_method req = lit "POST" /\ h_body req = chunk /\ success a.
Definition took (e : exchange) : bool := match snd e with Some (c, _) => (200 <=? c) && (c <=? 299) | None => false end.
(** A redirect after which the client does not send the data again. *)
Definition drops_data (e : exchange) : Prop := exists code loc, snd e = Some (code, loc) /\ In code [301; 302; 303].

(** ** Proofs *)
Lemma behavior_kind m code loc m' b : redirectBehavior m code loc = Some (m', b) ->
  ~ 200 <= code <= 299 /\ (In code [301; 302; 303] /\ b = false /\ (m = POST -> m' = GET) \/ ~ In code [301; 302; 303] /\ b = true /\ m' = m).
Proof.
  unfold redirectBehavior. destruct ((code =? 301) || (code =? 302) || (code =? 303)) eqn:E.
  - intros H. injection H as <- <-. split; [lia|]. left. split; [cbn [In]; lia|]. split; [reflexivity|]. intros ->. reflexivity.
  - destruct ((code =? 307) || (code =? 308)) eqn:E2; [|discriminate]. destruct loc; [discriminate|]. intros H. injection H as <- <-.
    split; [lia|]. right. split; [cbn [In]; lia|]. auto.
Qed.

Lemma behavior_none m code loc : redirectBehavior m code loc = None -> ~ In code [301; 302; 303].
Proof. unfold redirectBehavior. destruct ((code =? 301) || (code =? 302) || (code =? 303)) eqn:E; [discriminate|]. intros _. cbn [In]. lia. Qed.

Section Proofs.
  Variable server : list exchange -> hreq -> answer.
  Variable resolve : bytes -> bytes -> option bytes.

  Lemma write_status code : Write (Status code) = WOk <-> 200 <= code <= 299.
  Proof. unfold Write, isHTTPPOSTSuccess, isHTTPClientError. destruct (Z.leb_spec 200 code), (Z.ltb_spec code 300); cbn [andb negb]; (split; [intros X; try lia|intros X; try lia; reflexivity]); destruct ((400 <=? code) && (code <? 500)); discriminate X. Qed.

  Definition no_success (tr : list exchange) : Prop := Forall (fun e => ~ success (snd e)) tr.
  Definition no_drop (tr : list exchange) : Prop := Forall (fun e => ~ drops_data e) tr.

  Lemma not_success code loc : ~ 200 <= code <= 299 -> ~ success (Some (code, loc)).
  Proof. intros H (c & l & E & R). injection E as <- <-. contradiction. Qed.

  Lemma doLoop_spec fuel : forall body done req tr r, (fuel + length done = 10)%nat -> no_success done ->
    (h_method req = POST /\ h_body req = body /\ no_drop done \/ h_method req <> POST /\ ~ no_drop done) ->
    doLoop server resolve fuel body done req = (tr, r) ->
    (length tr <= 10)%nat /\ (exists more, tr = done ++ more) /\
    ((Write r = WOk /\ exists pre lastr a, tr = pre ++ [(lastr, a)] /\ no_success pre /\ success a /\
        (h_method lastr = POST /\ h_body lastr = body /\ no_drop tr \/ h_method lastr <> POST /\ ~ no_drop tr)) \/
     (Write r <> WOk /\ no_success tr)).
  Proof.
    induction fuel as [|f IH]; intros body done req tr r L Ns K H.
    - cbn [doLoop] in H. injection H as <- <-. split; [lia|]. split; [exists []; rewrite app_nil_r; reflexivity|]. right. split; [discriminate|exact Ns].
    - cbn [doLoop] in H. set (a := server done req) in *. set (done' := done ++ [(req, a)]) in *.
      assert (L' : length done' = S (length done)) by (unfold done'; rewrite app_length; cbn; lia).
      assert (M' : exists more, done' = done ++ more) by (exists [(req, a)]; reflexivity).
      destruct a as [[code loc]|] eqn:Ea.
      2:{ injection H as <- <-. split; [lia|]. split; [exact M'|]. right. split; [discriminate|]. apply Forall_app. split; [exact Ns|]. constructor; [|constructor]. cbn [snd]. intros (c & l & X & _). discriminate X. }
      destruct (redirectBehavior (h_method req) code loc) as [[m b]|] eqn:Eb.
      + destruct (behavior_kind _ _ _ _ _ Eb) as [Nc Kd].
        assert (Ns' : no_success done') by (apply Forall_app; split; [exact Ns|]; constructor; [apply not_success; exact Nc|constructor]).
        assert (Fin : forall x, (done', NoResponse) = x -> x = (tr, r) -> (length tr <= 10)%nat /\ (exists more, tr = done ++ more) /\
           ((Write r = WOk /\ exists pre lastr a, tr = pre ++ [(lastr, a)] /\ no_success pre /\ success a /\
             (h_method lastr = POST /\ h_body lastr = body /\ no_drop tr \/ h_method lastr <> POST /\ ~ no_drop tr)) \/ (Write r <> WOk /\ no_success tr))).
        { intros x <- X. injection X as <- <-. split; [lia|]. split; [exact M'|]. right. split; [discriminate|exact Ns']. }
        destruct loc as [|c0 loc']; [exact (Fin _ eq_refl H)|]. destruct (resolve (h_url req) (c0 :: loc')) as [u|]; [|exact (Fin _ eq_refl H)].
        destruct (Nat.leb_spec 10 (length done')) as [Ll|Ll]; [exact (Fin _ eq_refl H)|].
        apply IH in H; [|lia|exact Ns'|].
        * destruct H as (H1 & (more & ->) & H3). split; [exact H1|]. split; [exists ((req, Some (code, c0 :: loc')) :: more); unfold done'; rewrite <- app_assoc; reflexivity|exact H3].
        * cbn [h_method h_body]. destruct Kd as [(Ci & -> & Km)|(Ci & -> & ->)].
          -- right. split.
             ++ destruct K as [(Kp & _)|(Kp & _)]; [rewrite (Km Kp); discriminate|].
                unfold redirectBehavior in Eb. replace ((code =? 301) || (code =? 302) || (code =? 303)) with true in Eb by (cbn [In] in Ci; lia).
                injection Eb as <-. destruct (negb (beqs (h_method req) GET) && negb (beqs (h_method req) HEAD)); [discriminate|exact Kp].
             ++ intros X. apply Forall_app in X. destruct X as [_ X]. inversion X as [|? ? X1 _]; subst. apply X1. exists code, (c0 :: loc'). split; [reflexivity|exact Ci].
          -- destruct K as [(Kp & Kb & Kn)|(Kp & Kn)].
             ++ left. split; [exact Kp|]. split; [reflexivity|]. apply Forall_app. split; [exact Kn|]. constructor; [|constructor].
                intros (c & l & X & Y). cbn [snd] in X. injection X as <- <-. contradiction.
             ++ right. split; [exact Kp|]. intros X. apply Kn. apply Forall_app in X. apply X.
      + injection H as <- <-. split; [lia|]. split; [exact M'|].
        pose proof (behavior_none _ _ _ Eb) as Nd.
        destruct (Z_le_dec 200 code) as [C1|C1]; [destruct (Z_le_dec code 299) as [C2|C2]|].
        * left. split; [apply write_status; lia|]. exists done, req, (Some (code, loc)). split; [reflexivity|]. split; [exact Ns|]. split; [exists code, loc; split; [reflexivity|lia]|].
          destruct K as [(Kp & Kb & Kn)|(Kp & Kn)].
          -- left. split; [exact Kp|]. split; [exact Kb|]. apply Forall_app. split; [exact Kn|]. constructor; [|constructor]. intros (c & l & X & Y). cbn [snd] in X. injection X as <- <-. contradiction.
          -- right. split; [exact Kp|]. intros X. apply Kn. apply Forall_app in X. apply X.
        * right. split; [rewrite write_status; lia|]. apply Forall_app. split; [exact Ns|]. constructor; [apply not_success; lia|constructor].
        * right. split; [rewrite write_status; lia|]. apply Forall_app. split; [exact Ns|]. constructor; [apply not_success; lia|constructor].
  Qed.

  Lemma doLoop_first fuel : forall body done req tr r, doLoop server resolve (S fuel) body done req = (tr, r) -> exists more, tr = done ++ (req, server done req) :: more.
  Proof.
    induction fuel as [|f IH]; intros body done req tr r H; cbn [doLoop] in H; destruct (server done req) as [[code loc]|].
    1, 3: destruct (redirectBehavior _ _ _) as [[m b]|]; [|injection H as <- _; exists []; reflexivity];
      destruct loc as [|c0 l0]; [injection H as <- _; exists []; reflexivity|]; destruct (resolve _ _); [|injection H as <- _; exists []; reflexivity];
      destruct (Nat.leb _ _); [injection H as <- _; exists []; reflexivity|].
    - injection H as <- _. exists []. reflexivity.
    - apply IH in H. destruct H as (more & ->). eexists. rewrite <- app_assoc. reflexivity.
    - injection H as <- _. exists []. reflexivity.
    - injection H as <- _. exists []. reflexivity.
  Qed.

  Lemma writeTo_spec url chunk tr o : writeTo server resolve url chunk = (tr, o) ->
    (1 <= length tr <= 10)%nat /\ (exists more, tr = (HReq POST url chunk, server [] (HReq POST url chunk)) :: more) /\
    ((o = WOk /\ exists pre lastr a, tr = pre ++ [(lastr, a)] /\ no_success pre /\ success a /\
        (h_method lastr = POST /\ h_body lastr = chunk /\ no_drop tr \/ h_method lastr <> POST /\ ~ no_drop tr)) \/
     (o <> WOk /\ no_success tr)).
  Proof.
    unfold writeTo. destruct (doLoop server resolve 10 chunk [] (HReq POST url chunk)) as [tr' r] eqn:E. intros H. injection H as <- <-.
    destruct (doLoop_first 9 _ _ _ _ _ E) as (more & F). cbn [app] in F.
    destruct (doLoop_spec 10 chunk [] (HReq POST url chunk) tr' r eq_refl (Forall_nil _) (or_introl (conj eq_refl (conj eq_refl (Forall_nil _)))) E) as (L & _ & R).
    split; [split; [subst tr'; cbn; lia|exact L]|]. split; [exists more; exact F|exact R].
  Qed.
  (** Two exchanges one after the other. *)
  Definition follows (body : bytes) (e1 e2 : exchange) : Prop :=
    (drops_data e1 -> h_method (fst e2) = lit "GET" /\ h_body (fst e2) = []) /\
    (~ drops_data e1 -> h_method (fst e2) = h_method (fst e1) /\ h_body (fst e2) = body /\ exists loc, snd e1 = Some (307, loc) \/ snd e1 = Some (308, loc)).
  Definition chain (body : bytes) (tr : list exchange) : Prop := forall pre e1 e2 post, tr = pre ++ e1 :: e2 :: post -> follows body e1 e2.

  Lemma chain_snoc body tr e1 e2 : chain body (tr ++ [e1]) -> follows body e1 e2 -> chain body ((tr ++ [e1]) ++ [e2]).
  Proof.
    intros C F pre x y post E. destruct post as [|z post] using rev_ind.
    - rewrite <- app_assoc in E. cbn [app] in E. change (e1 :: [e2]) with ([e1] ++ [e2]) in E. change (x :: [y]) with ([x] ++ [y]) in E. rewrite !app_assoc in E.
      apply app_inj_tail in E. destruct E as [E <-]. apply app_inj_tail in E. destruct E as [_ <-]. exact F.
    - change (pre ++ x :: y :: post ++ [z]) with (pre ++ (x :: y :: post) ++ [z]) in E. rewrite app_assoc in E. apply app_inj_tail in E. destruct E as [E _]. exact (C _ _ _ _ E).
  Qed.

  Lemma behavior_exact m code loc m' b : (m = POST \/ m = GET) -> redirectBehavior m code loc = Some (m', b) ->
    (In code [301; 302; 303] /\ b = false /\ m' = GET) \/ (~ In code [301; 302; 303] /\ b = true /\ m' = m /\ (code = 307 \/ code = 308)).
  Proof.
    intros Hm. unfold redirectBehavior. destruct ((code =? 301) || (code =? 302) || (code =? 303)) eqn:E.
    - intros H. injection H as <- <-. left. split; [cbn [In]; lia|]. split; [reflexivity|]. destruct Hm as [->| ->]; reflexivity.
    - destruct ((code =? 307) || (code =? 308)) eqn:E2; [|discriminate]. destruct loc; [discriminate|]. intros H. injection H as <- <-. right. split; [cbn [In]; lia|]. split; [reflexivity|]. split; [reflexivity|lia].
  Qed.

  Lemma doLoop_chain fuel : forall body done req tr r, (h_method req = POST \/ h_method req = GET) ->
    (forall a, chain body (done ++ [(req, a)])) -> chain body done -> doLoop server resolve fuel body done req = (tr, r) -> chain body tr.
  Proof.
    induction fuel as [|f IH]; intros body done req tr r Hm C0 C H; cbn [doLoop] in H; [injection H as <- _; exact C|].
    set (a := server done req) in *. pose proof (C0 a) as C1. destruct a as [[code loc]|]; [|injection H as <- _; exact C1].
    destruct (redirectBehavior (h_method req) code loc) as [[m w]|] eqn:Eb; [|injection H as <- _; exact C1].
    destruct loc as [|c0 loc]; [injection H as <- _; exact C1|]. destruct (resolve _ _) as [u|]; [|injection H as <- _; exact C1].
    destruct (Nat.leb _ _); [injection H as <- _; exact C1|].
    apply (behavior_exact _ _ _ _ _ Hm) in Eb. revert H. apply IH.
    - cbn [h_method]. destruct Eb as [(_ & _ & ->)|(_ & _ & -> & _)]; auto.
    - intros a. apply chain_snoc; [exact C1|]. destruct Eb as [(Ci & -> & ->)|(Ci & -> & -> & Cc)]; split; cbn [fst snd h_method h_body].
      + intros _. split; reflexivity.
      + intros X. exfalso. apply X. exists code, (c0 :: loc). auto.
      + intros (c & l & X & Y). cbn [snd] in X. injection X as <- <-. contradiction.
      + intros _. split; [reflexivity|]. split; [reflexivity|]. exists (c0 :: loc). destruct Cc as [->| ->]; auto.
    - exact C1.
  Qed.

  Lemma next_request url chunk tr r pre e1 req a post : doLoop server resolve 10 chunk [] (HReq POST url chunk) = (tr, r) ->
    tr = pre ++ e1 :: (req, a) :: post -> follows chunk e1 (req, a).
  Proof.
    intros H. apply doLoop_chain in H; [exact (H pre e1 (req, a) post)|left; reflexivity| |].
    - intros b p x y q E. apply (f_equal (@length _)) in E. rewrite !app_length in E. cbn [length] in E. lia.
    - intros p x y q E. destruct p; discriminate E.
  Qed.
End Proofs.
