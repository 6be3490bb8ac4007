(** Where the writer sends InfluxDB's user name and password.

    writer/influxclient.go:56-83 Write sets the Authorization header once (61-63); http.Client.Do copies it to the requests which follow
    redirects.  The copying (Go 1.15, net/http/client.go makeHeadersCopier, shouldCopyHeaderOnRedirect, isDomainOrSubdomain;
    transport.go canonicalAddr) is modelled from knowledge, its source is not in the repository.  The loop is the one of Redirect.v.
    Simplified: no user names inside URLs, no IPv6 literals, no names which are not ASCII. *)
From Verif Require Import Base Convert Config Url Retry Redirect.
Local Open Scope Z_scope.

(** net/url: the host and port of an absolute URL. *)
Definition authority (u : bytes) : bytes :=
  match behind colon u with
  | Some (a :: b :: r) => if Ascii.eqb a "/"%char && Ascii.eqb b "/"%char then before quest (before hash (before "/"%char r)) else []
  | _ => []
  end.
(** net/http/transport.go portMap. *)
Definition defaultPort (scheme : bytes) : bytes :=
  if beqs scheme (lit "http") then lit "80" else if beqs scheme (lit "https") then lit "443"
  else if beqs scheme (lit "socks5") then lit "1080" else [].
(** net/http/transport.go canonicalAddr: host and port. *)
Definition canonicalAddr (u : bytes) : bytes :=
  let a := authority u in
  match behind colon a with
  | Some (d :: p) => before colon a ++ [colon] ++ d :: p
  | _ => before colon a ++ [colon] ++ defaultPort (before colon u)
  end.
(** net/http/client.go isDomainOrSubdomain. *)
Definition isDomainOrSubdomain (sub parent : bytes) : bool :=
  beqs sub parent ||
  (let n := (length sub - length parent)%nat in
   Nat.ltb (length parent) (length sub) && beqs (skipn n sub) parent && match nth_error sub (n - 1) with Some x => Ascii.eqb x "."%char | None => false end).
(** net/http/client.go shouldCopyHeaderOnRedirect for Authorization. *)
Definition shouldCopy (initial dest : bytes) : bool := isDomainOrSubdomain (canonicalAddr dest) (canonicalAddr initial).

(** A request with its Authorization header. *)
Record areq := AReq { a_req : hreq; a_auth : option bytes }.
Definition aexchange := (areq * answer)%type.

Section Client.
  (** The servers: an answer for each request, given everything before. *)
  Variable server : list aexchange -> areq -> answer.
  Variable resolve : bytes -> bytes -> option bytes.

  (** net/http/client.go do, as in Redirect.v, with makeHeadersCopier: the header comes from the first request, the comparison is with
      the previous one. *)
  Fixpoint doLoopA (fuel : nat) (auth : option bytes) (body : bytes) (done : list aexchange) (req : areq) : list aexchange * response :=
    match fuel with
    | O => (done, NoResponse)
    | S f =>
        let a := server done req in
        let done' := done ++ [(req, a)] in
        match a with
        | None => (done', NoResponse)
        | Some (code, loc) =>
            match redirectBehavior (h_method (a_req req)) code loc with
            | None => (done', Status code)
            | Some (m, withBody) =>
                match loc with
                | [] => (done', NoResponse)
                | _ =>
                    match resolve (h_url (a_req req)) loc with
                    | None => (done', NoResponse)
                    | Some u =>
                        if Nat.leb 10 (length done') then (done', NoResponse)
                        else doLoopA f auth body done' (AReq (HReq m u (if withBody then body else [])) (if shouldCopy (h_url (a_req req)) u then auth else None))
                    end
                end
            end
        end
    end.

  (** writer/influxclient.go:56-83 Write of [chunk] with the configuration's URL and credentials: everything exchanged, and the error. *)
  Definition writeAs (c : cfg) (chunk : bytes) : list aexchange * outcome :=
    let (tr, r) := doLoopA 10 (credentials c) chunk [] (AReq (HReq POST (influxURL c) chunk) (credentials c)) in (tr, Write r).
End Client.

(** ** Specification *)
(** The address [a] is [b] or below it: the same port, and the same host or one whose name ends in a dot and [b]'s. *)
Definition within (a b : bytes) : Prop := a = b \/ exists x, a = x ++ lit "." ++ b.
Definition home (c : cfg) : bytes := canonicalAddr (influxURL c).
Definition at_ (e : aexchange) : bytes := canonicalAddr (h_url (a_req (fst e))).
Definition shows (e : aexchange) : option bytes := a_auth (fst e).
Definition plain_of (e : aexchange) : exchange := (a_req (fst e), snd e).

(** ** Proofs *)
Lemma is_within a b : isDomainOrSubdomain a b = true <-> within a b.
Proof.
  unfold isDomainOrSubdomain, within. split.
  - intros H. apply Bool.orb_true_iff in H. destruct H as [H|H]; [left; apply beqs_eq; exact H|right].
    apply andb_prop in H. destruct H as [H H3]. apply andb_prop in H. destruct H as [H1 H2].
    apply Nat.ltb_lt in H1. apply beqs_eq in H2. set (n := (length a - length b)%nat) in *.
    destruct (nth_error a (n - 1)) as [x|] eqn:E; [|discriminate]. apply Ascii.eqb_eq in H3. subst x.
    apply nth_error_split in E. destruct E as (l1 & l2 & Ea & El).
    exists l1. assert (Hn : n = (length l1 + 1)%nat) by lia.
    assert (E2 : skipn n a = l2).
    { rewrite Ea, Hn, skipn_app, skipn_all2 by lia. replace (length l1 + 1 - length l1)%nat with 1%nat by lia. reflexivity. }
    rewrite Ea, <- E2, H2. reflexivity.
  - intros [->|[x ->]]; [rewrite beqs_refl; reflexivity|]. apply Bool.orb_true_iff. right.
    change (lit "." ++ b) with ("."%char :: b).
    assert (L : length (x ++ "."%char :: b) = (length x + 1 + length b)%nat) by (rewrite app_length; cbn [length]; lia).
    rewrite L. replace (length x + 1 + length b - length b)%nat with (length x + 1)%nat by lia.
    rewrite (proj2 (Nat.ltb_lt _ _)) by lia. replace (length x + 1 - 1)%nat with (length x) by lia.
    rewrite nth_error_app2 by lia. rewrite Nat.sub_diag. rewrite skipn_app, skipn_all2 by lia.
    replace (length x + 1 - length x)%nat with 1%nat by lia. cbn [app skipn nth_error]. rewrite beqs_refl. reflexivity.
Qed.

Lemma within_trans a b c : within a b -> within b c -> within a c.
Proof.
  intros [->|[x ->]] [->|[y ->]]; unfold within; [left; reflexivity|right; exists y; reflexivity|right; exists x; reflexivity|].
  right. exists (x ++ lit "." ++ y). rewrite <- !app_assoc. reflexivity.
Qed.

(** The header of every request. *)
Definition linked (auth : option bytes) (e1 : aexchange) (q : areq) : Prop :=
  (within (canonicalAddr (h_url (a_req q))) (at_ e1) -> a_auth q = auth) /\
  (~ within (canonicalAddr (h_url (a_req q))) (at_ e1) -> a_auth q = None).
Definition headers (auth : option bytes) (tr : list aexchange) : Prop :=
  forall pre e1 e2 post, tr = pre ++ e1 :: e2 :: post -> linked auth e1 (fst e2).

Lemma headers_snoc auth tr e1 e2 : headers auth (tr ++ [e1]) -> linked auth e1 (fst e2) -> headers auth ((tr ++ [e1]) ++ [e2]).
Proof.
  intros C F pre x y post E. destruct post as [|z post] using rev_ind.
  - rewrite <- app_assoc in E. cbn [app] in E. change (e1 :: [e2]) with ([e1] ++ [e2]) in E. change (x :: [y]) with ([x] ++ [y]) in E. rewrite !app_assoc in E.
    apply app_inj_tail in E. destruct E as [E <-]. apply app_inj_tail in E. destruct E as [_ <-]. exact F.
  - change (pre ++ x :: y :: post ++ [z]) with (pre ++ (x :: y :: post) ++ [z]) in E. rewrite app_assoc in E. apply app_inj_tail in E. destruct E as [E _]. exact (C _ _ _ _ E).
Qed.

Section Proofs.
  Variable server : list aexchange -> areq -> answer.
  Variable resolve : bytes -> bytes -> option bytes.

  Lemma doLoopA_headers fuel : forall auth body done req tr r,
    (forall a, headers auth (done ++ [(req, a)])) -> headers auth done -> doLoopA server resolve fuel auth body done req = (tr, r) -> headers auth tr.
  Proof.
    induction fuel as [|f IH]; intros auth body done req tr r C0 C H; cbn [doLoopA] in H; [injection H as <- _; exact C|].
    set (a := server done req) in *. pose proof (C0 a) as C1. destruct a as [[code loc]|]; [|injection H as <- _; exact C1].
    destruct (redirectBehavior _ code loc) as [[m w]|]; [|injection H as <- _; exact C1].
    destruct loc as [|c0 loc]; [injection H as <- _; exact C1|]. destruct (resolve _ _) as [u|]; [|injection H as <- _; exact C1].
    destruct (Nat.leb _ _); [injection H as <- _; exact C1|].
    revert H. apply IH; [|exact C1].
    intros a. apply headers_snoc; [exact C1|]. unfold linked, at_. cbn [fst a_req a_auth h_url]. unfold shouldCopy.
    destruct (isDomainOrSubdomain (canonicalAddr u) (canonicalAddr (h_url (a_req req)))) eqn:Ei.
    - apply is_within in Ei. split; [reflexivity|contradiction].
    - split; [|reflexivity]. intros X. apply is_within in X. rewrite X in Ei. discriminate.
  Qed.

  Lemma doLoopA_first fuel auth body done req tr r : doLoopA server resolve (S fuel) auth body done req = (tr, r) -> exists more, tr = done ++ (req, server done req) :: more.
  Proof.
    revert auth body done req tr r. induction fuel as [|f IH]; intros auth body done req tr r H; cbn [doLoopA] in H; destruct (server done req) as [[code loc]|].
    1, 3: destruct (redirectBehavior _ _ _) as [[m b]|]; [|injection H as <- _; exists []; reflexivity];
      destruct loc as [|c0 l0]; [injection H as <- _; exists []; reflexivity|]; destruct (resolve _ _); [|injection H as <- _; exists []; reflexivity];
      destruct (Nat.leb _ _); [injection H as <- _; exists []; reflexivity|].
    - injection H as <- _. exists []. reflexivity.
    - apply IH in H. destruct H as (more & ->). eexists. rewrite <- app_assoc. reflexivity.
    - injection H as <- _. exists []. reflexivity.
    - injection H as <- _. exists []. reflexivity.
  Qed.

  Lemma writeAs_spec c chunk tr o : writeAs server resolve c chunk = (tr, o) ->
    headers (credentials c) tr /\
    exists more, tr = (AReq (HReq POST (influxURL c) chunk) (credentials c), server [] (AReq (HReq POST (influxURL c) chunk) (credentials c))) :: more.
  Proof.
    unfold writeAs. destruct (doLoopA _ _ _ _ _ _ _) as [tr' r] eqn:E. intros H. injection H as <- _. split.
    - revert E. apply doLoopA_headers.
      + intros a pre e1 e2 post X. apply (f_equal (@length _)) in X. rewrite !app_length in X. cbn [length] in X. lia.
      + intros pre e1 e2 post X. destruct pre; discriminate X.
    - destruct (doLoopA_first 9 _ _ _ _ _ _ E) as (more & F). exists more. exact F.
  Qed.

  (** The requests are those of Redirect.v, for servers which see the headers. *)
  Fixpoint dress (auth : option bytes) (prev : option hreq) (tr : list exchange) : list aexchange :=
    match tr with
    | [] => []
    | (q, a) :: rest =>
        (AReq q (match prev with None => auth | Some p => if shouldCopy (h_url p) (h_url q) then auth else None end), a) :: dress auth (Some q) rest
    end.
  Definition last_req (tr : list exchange) : option hreq := match rev tr with (q, _) :: _ => Some q | [] => None end.
  Definition dress1 (auth : option bytes) (tr : list exchange) (q : hreq) : areq :=
    AReq q (match last_req tr with None => auth | Some p => if shouldCopy (h_url p) (h_url q) then auth else None end).

  Lemma dress_snoc auth : forall tr prev q a,
    dress auth prev (tr ++ [(q, a)]) =
    dress auth prev tr ++ [(AReq q (match (match last_req tr with None => prev | p => p end) with None => auth | Some p => if shouldCopy (h_url p) (h_url q) then auth else None end), a)].
  Proof.
    induction tr as [|[q0 a0] tr IH]; intros prev q a; [reflexivity|].
    cbn [app dress]. rewrite IH. f_equal. f_equal. f_equal. f_equal. f_equal. unfold last_req. cbn [rev].
    unfold exchange in *. destruct (rev tr) as [|[x y] l] eqn:E; cbn [app]; reflexivity.
  Qed.

  Lemma dress_length auth : forall tr prev, length (dress auth prev tr) = length tr.
  Proof. induction tr as [|[q a] tr IH]; intros prev; [reflexivity|]. cbn [dress length]. f_equal. apply IH. Qed.

  Definition plainServer (auth : option bytes) (done : list exchange) (q : hreq) : answer := server (dress auth None done) (dress1 auth done q).

  Lemma doLoopA_plain fuel auth body : forall done req,
    fst (doLoopA server resolve fuel auth body (dress auth None done) (dress1 auth done req)) =
      dress auth None (fst (doLoop (plainServer auth) resolve fuel body done req)) /\
    snd (doLoopA server resolve fuel auth body (dress auth None done) (dress1 auth done req)) =
      snd (doLoop (plainServer auth) resolve fuel body done req).
  Proof.
    induction fuel as [|f IH]; intros done req; [split; reflexivity|].
    cbn [doLoopA doLoop]. change (plainServer auth done req) with (server (dress auth None done) (dress1 auth done req)).
    change (h_method (a_req (dress1 auth done req))) with (h_method req). change (h_url (a_req (dress1 auth done req))) with (h_url req).
    set (a := server (dress auth None done) (dress1 auth done req)).
    assert (D : dress auth None done ++ [(dress1 auth done req, a)] = dress auth None (done ++ [(req, a)])).
    { rewrite dress_snoc. unfold dress1. destruct (last_req done); reflexivity. }
    rewrite D.
    assert (L : length (dress auth None (done ++ [(req, a)])) = length (done ++ [(req, a)])).
    { apply dress_length. }
    destruct a as [[code loc]|]; [|split; reflexivity].
    destruct (redirectBehavior (h_method req) code loc) as [[m w]|]; [|split; reflexivity].
    destruct loc as [|c0 loc]; [split; reflexivity|].
    destruct (resolve (h_url req) (c0 :: loc)) as [u|]; [|split; reflexivity].
    rewrite L. destruct (Nat.leb 10 _); [split; reflexivity|].
    specialize (IH (done ++ [(req, Some (code, c0 :: loc))]) (HReq m u (if w then body else []))).
    assert (D1 : dress1 auth (done ++ [(req, Some (code, c0 :: loc))]) (HReq m u (if w then body else [])) =
      AReq (HReq m u (if w then body else [])) (if shouldCopy (h_url req) u then auth else None)).
    { unfold dress1, last_req. rewrite rev_app_distr. reflexivity. }
    rewrite D1 in IH. exact IH.
  Qed.

  Lemma dress_plain auth : forall tr prev, map plain_of (dress auth prev tr) = tr.
  Proof. induction tr as [|[q a] tr IH]; intros prev; [reflexivity|]. cbn [dress map]. rewrite IH. reflexivity. Qed.

  Lemma writeAs_plain c chunk :
    (map plain_of (fst (writeAs server resolve c chunk)), snd (writeAs server resolve c chunk)) = writeTo (plainServer (credentials c)) resolve (influxURL c) chunk.
  Proof.
    unfold writeAs, writeTo.
    destruct (doLoopA_plain 10 (credentials c) chunk [] (HReq POST (influxURL c) chunk)) as [H1 H2].
    cbn [dress] in H1, H2. unfold dress1, last_req in H1, H2. cbn [rev] in H1, H2.
    destruct (doLoopA server resolve 10 (credentials c) chunk [] (AReq (HReq POST (influxURL c) chunk) (credentials c))) as [tr r].
    destruct (doLoop (plainServer (credentials c)) resolve 10 chunk [] (HReq POST (influxURL c) chunk)) as [tr' r'].
    cbn [fst snd] in *. subst. rewrite dress_plain. reflexivity.
  Qed.
End Proofs.
