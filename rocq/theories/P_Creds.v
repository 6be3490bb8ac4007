(** Property C119 (properties.jsonl): InfluxDB's user name and password are sent to the configured server only, and on every request to it. *)
From Verif Require Import Base Convert Config Url PromProofs Retry Redirect Creds.
Local Open Scope Z_scope.

(** The configured address: the option influxdb_address and influxdb_port. *)
Theorem C119_address : forall c,
  int64 (c_db_port c) -> ~ In colon (c_db_protocol c) -> (forall x, In x (c_db_address c) -> ~ In x [colon; "/"%char; quest; hash]) ->
  home c = c_db_address c ++ lit ":" ++ FormatInt (c_db_port c).
Proof.
  intros c Hi Hp Ha. unfold home, canonicalAddr.
  assert (D : forall x, In x (FormatInt (c_db_port c)) -> ~ In x [colon; "/"%char; quest; hash]).
  { intros x Hx [E|[E|[E|[E|[]]]]]; subst x; apply FormatInt_plain in Hx; destruct Hx as [Hx|Hx]; try discriminate Hx; vm_compute in Hx; destruct Hx as [H1 H2]; try (apply H1; reflexivity); apply H2; reflexivity. }
  assert (HP : forall x, In x (c_db_address c ++ [colon] ++ FormatInt (c_db_port c)) -> x = colon \/ ~ In x [colon; "/"%char; quest; hash]).
  { intros x Hx. apply in_app_or in Hx. destruct Hx as [Hx|Hx]; [right; apply Ha; exact Hx|]. destruct Hx as [Hx|Hx]; [left; auto|right; apply D; exact Hx]. }
  assert (Au : authority (influxURL c) = c_db_address c ++ [colon] ++ FormatInt (c_db_port c)).
  { unfold authority, influxURL. change (lit "://" ++ ?x) with (colon :: lit "//" ++ x).
    rewrite (behind_hit colon (c_db_protocol c) _ Hp).
    change (lit "//" ++ ?x) with ("/"%char :: "/"%char :: x). cbn [Ascii.eqb Bool.eqb andb].
    set (A := c_db_address c ++ [colon] ++ FormatInt (c_db_port c)) in *.
    replace (c_db_address c ++ [colon] ++ FormatInt (c_db_port c) ++ lit "/write?db=" ++ c_db_name c) with (A ++ "/"%char :: (lit "write?db=" ++ c_db_name c))
      by (unfold A; rewrite <- !app_assoc; reflexivity).
    rewrite before_hit; [|intros X; apply HP in X; destruct X as [X|X]; [discriminate X|apply X; cbn; auto]].
    rewrite (before_none hash), (before_none quest); [reflexivity| |];
      intros X; apply HP in X; (destruct X as [X|X]; [discriminate X|apply X; cbn; auto]). }
  rewrite Au. change ([colon] ++ ?x) with (colon :: x).
  assert (Na : ~ In colon (c_db_address c)) by (intros X; apply Ha in X; apply X; cbn; auto).
  rewrite (behind_hit colon _ _ Na), (before_hit colon _ _ Na).
  destruct (FormatInt (c_db_port c)) as [|d p] eqn:E; [exfalso|reflexivity].
  destruct (FormatInt_facts _ Hi) as (_ & _ & _ & X). exact (X E).
Qed.
Print Assumptions C119_address.

(** The first request goes there, and bears the credentials if there is a user name. *)
Theorem C119_first : forall server resolve c chunk tr o, writeAs server resolve c chunk = (tr, o) ->
  exists e more, tr = e :: more /\ h_url (a_req (fst e)) = influxURL c /\ h_body (a_req (fst e)) = chunk /\
    shows e = match c_db_user c with [] => None | u => Some (u ++ lit ":" ++ c_db_pass c) end.
Proof.
  intros server resolve c chunk tr o H. destruct (writeAs_spec _ _ _ _ _ _ H) as (_ & more & ->).
  eexists _, _. split; [reflexivity|]. split; [reflexivity|]. split; [reflexivity|]. reflexivity.
Qed.
Print Assumptions C119_first.

(** Later requests: exactly those bear them whose address is within that of the request before. *)
Theorem C119_exact_partial : forall server resolve c chunk tr o pre e1 e2 post, writeAs server resolve c chunk = (tr, o) ->
  tr = pre ++ e1 :: e2 :: post ->
  (within (at_ e2) (at_ e1) -> shows e2 = credentials c) /\ (~ within (at_ e2) (at_ e1) -> shows e2 = None).
Proof.
  intros server resolve c chunk tr o pre e1 e2 post H E. destruct (writeAs_spec _ _ _ _ _ _ H) as (Hh & _).
  exact (Hh pre e1 e2 post E).
Qed.
Print Assumptions C119_exact_partial.

(** So they stay at home as long as no server elsewhere redirects to itself (or to a name below its own). *)
Lemma first_home server resolve c chunk tr o e more : writeAs server resolve c chunk = (tr, o) -> tr = e :: more -> at_ e = home c.
Proof.
  intros H E. destruct (writeAs_spec _ _ _ _ _ _ H) as (_ & more' & E'). rewrite E in E'. injection E' as -> ->. reflexivity.
Qed.
Theorem C119_home_partial : forall server resolve c chunk tr o, writeAs server resolve c chunk = (tr, o) ->
  (forall pre e1 e2 post, tr = pre ++ e1 :: e2 :: post -> ~ within (at_ e1) (home c) -> ~ within (at_ e2) (at_ e1)) ->
  forall e, In e tr -> shows e <> None -> within (at_ e) (home c).
Proof.
  intros server resolve c chunk tr o H Hs e He Hn.
  apply in_split in He. destruct He as (l & post & E).
  destruct l as [|x l] using rev_ind.
  - left. exact (first_home _ _ _ _ _ _ _ _ H E).
  - clear IHl. rewrite <- app_assoc in E. cbn [app] in E.
    destruct (C119_exact_partial _ _ _ _ _ _ _ _ _ _ H E) as [_ B].
    assert (W : within (at_ e) (at_ x)).
    { destruct (isDomainOrSubdomain (at_ e) (at_ x)) eqn:Ei; [apply is_within; exact Ei|]. exfalso. apply Hn, B. intros X. apply is_within in X. congruence. }
    destruct (isDomainOrSubdomain (at_ x) (home c)) eqn:Ej.
    + apply is_within in Ej. exact (within_trans _ _ _ W Ej).
    + exfalso. apply (Hs l x e post E); [|exact W]. intros X. apply is_within in X. congruence.
Qed.
Print Assumptions C119_home_partial.

(** In particular if at most one redirect is followed. *)
Theorem C119_one_redirect_partial : forall server resolve c chunk tr o, writeAs server resolve c chunk = (tr, o) ->
  (length tr <= 2)%nat -> forall e, In e tr -> shows e <> None -> within (at_ e) (home c).
Proof.
  intros server resolve c chunk tr o H L. apply (C119_home_partial _ _ _ _ _ _ H).
  intros pre e1 e2 post E N. exfalso. destruct pre as [|x pre].
  - apply N. left. exact (first_home _ _ _ _ _ _ _ _ H E).
  - apply (f_equal (@length _)) in E. cbn [app length] in E. rewrite app_length in E. cbn [length] in E. lia.
Qed.
Print Assumptions C119_one_redirect_partial.

(** And if every server stays within its own address, every request bears them. *)
Theorem C119_every_partial : forall server resolve c chunk tr o, writeAs server resolve c chunk = (tr, o) ->
  (forall e, In e tr -> within (at_ e) (home c) /\ within (home c) (at_ e)) -> forall e, In e tr -> shows e = credentials c.
Proof.
  intros server resolve c chunk tr o H Hw e He. pose proof He as He0. apply in_split in He. destruct He as (l & post & E).
  destruct l as [|x l] using rev_ind.
  - destruct (writeAs_spec _ _ _ _ _ _ H) as (_ & more' & E'). rewrite E in E'. injection E' as -> _. reflexivity.
  - clear IHl. rewrite <- app_assoc in E. cbn [app] in E.
    destruct (C119_exact_partial _ _ _ _ _ _ _ _ _ _ H E) as [A _]. apply A.
    assert (Hx : In x tr) by (rewrite E; apply in_or_app; right; left; reflexivity).
    apply (within_trans _ (home c)); [apply (Hw e He0)|apply (Hw x Hx)].
Qed.
Print Assumptions C119_every_partial.

(** Without a user name none are ever sent. *)
Theorem C119_anonymous : forall server resolve c chunk tr o, writeAs server resolve c chunk = (tr, o) ->
  c_db_user c = [] -> forall e, In e tr -> shows e = None.
Proof.
  intros server resolve c chunk tr o H Hu e He. assert (Hc : credentials c = None) by (unfold credentials; rewrite Hu; reflexivity).
  apply in_split in He. destruct He as (l & post & E). destruct l as [|x l] using rev_ind.
  - destruct (writeAs_spec _ _ _ _ _ _ H) as (_ & more' & E'). rewrite E in E'. injection E' as -> _. exact Hc.
  - clear IHl. rewrite <- app_assoc in E. cbn [app] in E.
    destruct (C119_exact_partial _ _ _ _ _ _ _ _ _ _ H E) as [A B].
    destruct (isDomainOrSubdomain (at_ e) (at_ x)) eqn:Ei.
    + rewrite A by (apply is_within; exact Ei). exact Hc.
    + apply B. intros X. apply is_within in X. congruence.
Qed.
Print Assumptions C119_anonymous.

(** False in general: a server elsewhere to which the configured one redirects gets them with a second redirect, to itself. *)
Theorem C119_leak_refuted : forall c chunk other path, c_db_user c <> [] -> path <> [] -> other <> [] ->
  canonicalAddr other = canonicalAddr path -> ~ within (canonicalAddr other) (home c) ->
  exists server tr o, writeAs server (fun _ l => Some l) c chunk = (tr, o) /\
    exists e, In e tr /\ canonicalAddr (h_url (a_req (fst e))) = canonicalAddr other /\ shows e = Some (c_db_user c ++ lit ":" ++ c_db_pass c).
Proof.
  intros c chunk other path Hu Hp Ho Ha Hw.
  exists (fun done _ => match done with [] => Some (307, other) | [_] => Some (307, path) | _ => Some (204, []) end).
  destruct (writeAs _ _ c chunk) as [tr o] eqn:E. exists tr, o. split; [reflexivity|].
  assert (F : isDomainOrSubdomain (canonicalAddr other) (canonicalAddr (influxURL c)) = false).
  { destruct (isDomainOrSubdomain (canonicalAddr other) (canonicalAddr (influxURL c))) eqn:Ei; [|reflexivity]. exfalso. apply Hw, is_within. exact Ei. }
  assert (T : isDomainOrSubdomain (canonicalAddr path) (canonicalAddr other) = true) by (apply is_within; left; symmetry; exact Ha).
  unfold writeAs in E. cbn [doLoopA app a_req h_url h_method] in E.
  destruct other as [|x other]; [congruence|]. destruct path as [|y path]; [congruence|].
  unfold redirectBehavior in E. cbn [Z.eqb Pos.eqb orb app length Nat.leb] in E.
  unfold shouldCopy in E. cbn [h_url a_req] in E. rewrite F in E. cbn [h_url a_req] in E. rewrite T in E.
  injection E as <- _.
  eexists. split; [right; right; left; reflexivity|]. split; [symmetry; exact Ha|].
  unfold shows. cbn [fst a_auth]. unfold credentials. destruct (c_db_user c); [congruence|reflexivity].
Qed.
Print Assumptions C119_leak_refuted.

(** A writer configured for https: a redirect to http at the same host and port gets them unencrypted. *)
Definition writer_file (protocol address : bytes) (port : Z) : pfile :=
  PFile None (Some (lit "writer")) None None None None (Some address) (Some protocol) (Some port) (Some (lit "metrics")) None None None None None None None None None None None
    None None None None None None None None None.
Definition loads (protocol address : bytes) (port : Z) (c : cfg) : Prop :=
  NewConfigFromFile toml_rules FAbsent (FOk (writer_file protocol address port)) (lit "/etc/spout/writer.toml") (lit "anna") (lit "secret") = LoadOk c.

Theorem C119_clear_refuted : exists c server tr o, loads (lit "https") (lit "influx") 8086 c /\
  writeAs server (fun _ l => Some l) c (lit "cpu v=1") = (tr, o) /\
  map (fun e => (h_url (a_req (fst e)), shows e)) tr =
    [(lit "https://influx:8086/write?db=metrics", Some (lit "anna:secret")); (lit "http://influx:8086/write?db=metrics", Some (lit "anna:secret"))].
Proof.
  eexists. exists (fun done _ => match done with [] => Some (307, lit "http://influx:8086/write?db=metrics") | _ => Some (204, []) end).
  eexists _, _. split; [vm_compute; reflexivity|]. split; [vm_compute; reflexivity|]. vm_compute. reflexivity.
Qed.
Print Assumptions C119_clear_refuted.

(** And the configured host itself does not get them after a redirect to another port: a server that wants a login, reached over http and
    redirecting to https, answers 401, which the writer takes for a permanent error: every write is dropped, with the right password. *)
Definition wants_login (want : bytes) (done : list aexchange) (q : areq) : answer :=
  if beqs (firstn 5 (h_url (a_req q))) (lit "http:") then Some (308, lit "https://influx/write?db=metrics")
  else match a_auth q with Some h => if beqs h want then Some (204, []) else Some (401, []) | None => Some (401, []) end.
Theorem C119_upgrade_refuted : exists c, loads (lit "http") (lit "influx") 80 c /\ forall chunk,
  exists tr, writeAs (wants_login (lit "anna:secret")) (fun _ l => Some l) c chunk = (tr, WPerm) /\
    map shows tr = [Some (lit "anna:secret"); None].
Proof.
  eexists. split; [vm_compute; reflexivity|]. intros chunk. eexists. split; reflexivity.
Qed.
Print Assumptions C119_upgrade_refuted.

(** Headers apart, these are the requests of C96: its theorems hold of them. *)
Theorem C119_same_requests : forall server resolve c chunk, exists server',
  (map plain_of (fst (writeAs server resolve c chunk)), snd (writeAs server resolve c chunk)) = writeTo server' resolve (influxURL c) chunk.
Proof. intros server resolve c chunk. exists (plainServer server (credentials c)). apply writeAs_plain. Qed.
Print Assumptions C119_same_requests.

(** Non-vacuity, and addresses. *)
Example C119_case : exists c, loads (lit "http") (lit "influx.example.com") 8086 c /\ home c = lit "influx.example.com:8086" /\
  exists tr, writeAs (wants_login (lit "anna:secret")) (fun _ _ => Some (lit "https://eu.influx.example.com:8086/write?db=metrics")) c (lit "cpu v=1") = (tr, WOk) /\
    map (fun e => (at_ e, shows e)) tr = [(lit "influx.example.com:8086", Some (lit "anna:secret")); (lit "eu.influx.example.com:8086", Some (lit "anna:secret"))] /\
    Forall (fun e => within (at_ e) (home c)) tr.
Proof.
  eexists. split; [vm_compute; reflexivity|]. split; [vm_compute; reflexivity|]. eexists. split; [reflexivity|]. split; [vm_compute; reflexivity|].
  constructor; [left; vm_compute; reflexivity|]. constructor; [right; exists (lit "eu"); vm_compute; reflexivity|constructor].
Qed.
Example C119_leak_case : exists c, loads (lit "http") (lit "influx") 8086 c /\ c_db_user c <> [] /\
  canonicalAddr (lit "http://evil.net/a") = canonicalAddr (lit "http://evil.net/b") /\ isDomainOrSubdomain (canonicalAddr (lit "http://evil.net/a")) (home c) = false.
Proof. eexists. split; [vm_compute; reflexivity|]. split; [discriminate|]. split; vm_compute; reflexivity. Qed.
Example addr_default : map canonicalAddr [lit "http://a/x"; lit "https://a?x"; lit "http://a:/x"; lit "http://a:81#f"; lit "ftp://a"]
  = [lit "a:80"; lit "a:443"; lit "a:80"; lit "a:81"; lit "a:"]. Proof. reflexivity. Qed.
Example sub_yes : isDomainOrSubdomain (lit "x.y.com:80") (lit "y.com:80") = true. Proof. reflexivity. Qed.
Example sub_no : map (fun a => isDomainOrSubdomain a (lit "y.com:80")) [lit "xy.com:80"; lit "com:80"; lit "x.y.com:81"; lit "y.com:80.evil.net:80"] = [false; false; false; false].
Proof. reflexivity. Qed.
