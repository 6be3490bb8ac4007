(** C78: the database and the credentials a writer presents to InfluxDB. *)
From Verif Require Import Base Config Url P_Cluster.
Local Open Scope nat_scope.

(** The server sees the configured database name exactly if it contains none of # & ; % + space and control bytes (for an
    address without # and ?; whether or not the server's Go version takes ; for a separator). *)
Theorem C78_database_partial : forall old c, plain_host (c_db_protocol c ++ c_db_address c) ->
  (db_seen old (influxURL c) = Some (c_db_name c) <-> plain_db (c_db_name c)).
Proof. exact db_iff. Qed.
Print Assumptions C78_database_partial.

(** A name without # & ; space and control bytes is read as an escaped one: + becomes a space, %XY the byte with that
    hexadecimal value, and with any other use of % no database is seen.  So every database can be reached by escaping its name in
    the configuration. *)
Theorem C78_escaped_name : forall old c d, plain_host (c_db_protocol c ++ c_db_address c) ->
  (forall x, In x (c_db_name c) -> ~ In x [hash; amp; semi; sp] /\ ~ control_byte x) ->
  (db_seen old (influxURL c) = Some d <-> unescapes (c_db_name c) d).
Proof. intros old c d Ph Pl. rewrite (db_unescaped old c Ph Pl). apply unescape_iff. Qed.
Print Assumptions C78_escaped_name.

(** The configuration of a writer with the given database name. *)
Definition db_file (name : bytes) : pfile :=
  PFile None (Some (lit "writer")) None None None None None None None (Some name) None None None None None None None None None None None
    None None None None None None None None None.
Definition loads_db (name : bytes) (cf : cfg) : Prop :=
  NewConfigFromFile toml_rules FAbsent (FOk (db_file name)) (lit "/etc/spout/writer.toml") [] [] = LoadOk cf.

(** So names that validation accepts lead into another database, or into none. *)
Theorem C78_database_refuted :
  (exists cf, loads_db (lit "metrics+raw") cf /\ db_seen true (influxURL cf) = Some (lit "metrics raw") /\ db_seen false (influxURL cf) = Some (lit "metrics raw")) /\
  (exists cf, loads_db (lit "R&D") cf /\ db_seen true (influxURL cf) = Some (lit "R") /\ db_seen false (influxURL cf) = Some (lit "R")) /\
  (exists cf, loads_db (lit "top#1") cf /\ db_seen true (influxURL cf) = Some (lit "top") /\ db_seen false (influxURL cf) = Some (lit "top")) /\
  (exists cf, loads_db (lit "cpu100%") cf /\ db_seen true (influxURL cf) = None /\ db_seen false (influxURL cf) = None) /\
  (exists cf, loads_db (lit "my db") cf /\ db_seen true (influxURL cf) = None /\ db_seen false (influxURL cf) = None).
Proof.
  split; [|split; [|split; [|split]]]; (eexists; split; [vm_compute; reflexivity|split; vm_compute; reflexivity]).
Qed.
Print Assumptions C78_database_refuted.

(** The server sees the configured user and password exactly if the user name contains no colon. *)
Theorem C78_login_partial : forall c, c_db_user c <> [] ->
  (login_seen (credentials c) = Some (c_db_user c, c_db_pass c) <-> ~ In colon (c_db_user c)).
Proof. exact login_user. Qed.
Print Assumptions C78_login_partial.

(** Otherwise what follows the colon goes into the password. *)
Theorem C78_login_refuted : forall c u r, c_db_user c = u ++ colon :: r -> ~ In colon u ->
  login_seen (credentials c) = Some (u, r ++ [colon] ++ c_db_pass c).
Proof. exact login_colon. Qed.
Print Assumptions C78_login_refuted.

(** Without a user name no credentials are sent. *)
Theorem C78_anonymous : forall c, c_db_user c = [] -> credentials c = None /\ login_seen (credentials c) = None.
Proof. intros c H. split; [unfold credentials; rewrite H; reflexivity|exact (login_anonymous c H)]. Qed.
Print Assumptions C78_anonymous.

(** Non-vacuity. *)
Example C78_case : exists cf, loads_db (lit "metrics_2024-a.b") cf /\ plain_host (c_db_protocol cf ++ c_db_address cf) /\ plain_db (c_db_name cf) /\
  influxURL cf = lit "http://localhost:8086/write?db=metrics_2024-a.b" /\ db_seen false (influxURL cf) = Some (lit "metrics_2024-a.b").
Proof.
  eexists. split; [vm_compute; reflexivity|]. split; [|split; [|split; [vm_compute; reflexivity|vm_compute; reflexivity]]].
  - intros c I. vm_compute in I. repeat destruct I as [<-|I]; try destruct I; (split; [intros [X|[X|[]]]; discriminate X|apply control_iff; reflexivity]).
  - intros c I. vm_compute in I. repeat destruct I as [<-|I]; try destruct I; (split; [intros X; vm_compute in X; repeat destruct X as [X|X]; try discriminate X; destruct X|apply control_iff; reflexivity]).
Qed.
Example C78_login_case : forall c, c_db_user (set_user_pass c (lit "anna") (lit "a:b")) = lit "anna" /\
  login_seen (credentials (set_user_pass c (lit "anna") (lit "a:b"))) = Some (lit "anna", lit "a:b") /\
  login_seen (credentials (set_user_pass c (lit "corp:anna") (lit "x"))) = Some (lit "corp", lit "anna:x").
Proof. intros c. split; [reflexivity|]. split; reflexivity. Qed.
Example C78_escaped_case : exists cf, loads_db (lit "R%26D%2fx%2B+1") cf /\ unescapes (c_db_name cf) (lit "R&D/x+ 1") /\
  db_seen false (influxURL cf) = Some (lit "R&D/x+ 1").
Proof.
  eexists. split; [vm_compute; reflexivity|]. split; [apply unescape_iff; vm_compute; reflexivity|vm_compute; reflexivity].
Qed.
