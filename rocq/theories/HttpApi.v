(** The HTTP listener's endpoint: which requests are writes, and how the query of a request is read. *)
From Verif Require Import Base Batch Url Listener.
Local Open Scope nat_scope.

(** A request as net/http hands it to the handler: method, path (unescaped), raw query, header fields, body and how the
    body arrives (as in [hreq]). *)
Record request := mkRequest { r_method : bytes; r_path : bytes; r_query : bytes; r_headers : list (bytes * bytes);
  r_body : bytes; r_sched : list (nat * rerr); r_rderr : bool; r_eager : bool }.

(** r.URL.Query().Get("precision") (listener/listener.go:267): Get of a missing key is the empty string. *)
Definition precision_of (old : bool) (q : bytes) : bytes :=
  match first_value old (lit "precision") (pieces old q) with Some v => v | None => [] end.

(** listener/listener.go:217-218: the mux knows the path /write only, and hands over requests of any method; other paths are
    answered by net/http (404 or a redirection to the cleaned path) and never reach the listener.  handleHTTPWrite
    (249-264) and readHTTPBody (266-280) use the query and the body. *)
Definition as_write (old : bool) (r : request) : option hreq :=
  if beqs (r_path r) (lit "/write")
  then Some (mkReq (precision_of old (r_query r)) (r_body r) (r_sched r) (r_rderr r) (r_eager r))
  else None.

(* ------------------------------------------------------------------ *)
(** * What clients send *)

(** [e] is [s] as a client may write it into a query: bytes as themselves (not the ones with a meaning), + or %20 for
    spaces, %XY for anything. *)
Definition query_part (s e : bytes) : Prop := unescapes e s /\ ~ In amp e /\ ~ In semi e /\ ~ In eqs e.
Definition param_text (k v e : bytes) : Prop := exists ek ev, query_part k ek /\ query_part v ev /\ e = ek ++ [eqs] ++ ev.
(** The query for a list of parameters. *)
Inductive query_text : list (bytes * bytes) -> bytes -> Prop :=
| qt_nil : query_text [] []
| qt_one k v e : param_text k v e -> query_text [(k, v)] e
| qt_more k v e ps q : param_text k v e -> ps <> [] -> query_text ps q -> query_text ((k, v) :: ps) (e ++ [amp] ++ q).
(** The first value of a parameter. *)
Definition first_param (key : bytes) (ps : list (bytes * bytes)) : option bytes :=
  option_map snd (find (fun p => beqs (fst p) key) ps).

(** url.QueryEscape, as Go and other clients do it: letters, digits and -_.~ as themselves, space as +, the rest as %XY. *)
Definition unreserved (c : ascii) : bool :=
  let n := bval c in (N.leb 48 n && N.leb n 57 || N.leb 65 n && N.leb n 90 || N.leb 97 n && N.leb n 122 || memb (lit "-_.~") c)%bool.
Definition hexchar (n : nat) : ascii := nth n (lit "0123456789ABCDEF") "0"%char.
Fixpoint QueryEscape (s : bytes) : bytes :=
  match s with
  | [] => []
  | c :: r =>
      (if unreserved c then [c] else if Ascii.eqb c sp then [plus]
       else [percent; hexchar (N.to_nat (bval c / 16)); hexchar (N.to_nat (bval c mod 16))]) ++ QueryEscape r
  end.

(* ------------------------------------------------------------------ *)

Lemma pieces_app old e q : ~ In amp e -> ~ In semi e -> pieces old (e ++ amp :: q) = e :: pieces old q.
Proof.
  induction e as [|c e IH]; intros A B; [reflexivity|]. cbn [app].
  destruct (pieces_step old c (e ++ amp :: q)) as (p & ps & E0 & E1).
  - intros ->. apply A. left; auto.
  - intros ->. apply B. left; auto.
  - rewrite IH in E0 by (first [intros I; apply A; right; exact I|intros I; apply B; right; exact I]). inversion E0; subst. exact E1.
Qed.

Lemma param_no k v e : param_text k v e -> ~ In amp e /\ ~ In semi e.
Proof.
  intros (ek & ev & (_ & A1 & S1 & _) & (_ & A2 & S2 & _) & ->).
  split; intros I; apply in_app_iff in I; destruct I as [I|I]; auto; destruct I as [I|I]; auto; discriminate I.
Qed.

Lemma param_first old key k v e r : param_text k v e ->
  first_value old key (e :: r) = if beqs k key then Some v else first_value old key r.
Proof.
  intros P. pose proof (param_no _ _ _ P) as [_ Ns]. destruct P as (ek & ev & (U1 & _ & _ & E1) & (U2 & _) & ->). cbn [first_value].
  replace (memb (ek ++ [eqs] ++ ev) semi) with false by (symmetry; apply memb_false; exact Ns). rewrite Bool.andb_false_r.
  replace (match ek ++ [eqs] ++ ev with [] => true | _ => false end) with false by (destruct ek; reflexivity). cbn [orb].
  change (ek ++ [eqs] ++ ev) with (ek ++ eqs :: ev). rewrite before_hit, behind_hit by exact E1.
  apply unescape_iff in U1, U2. rewrite U1, U2. reflexivity.
Qed.

Lemma query_first old key ps q : query_text ps q -> first_value old key (pieces old q) = first_param key ps.
Proof.
  induction 1 as [|k v e P|k v e ps q P Ne Q IH].
  - reflexivity.
  - destruct (param_no _ _ _ P) as [A B].
    rewrite pieces_one by (intros c I; split; [intros ->; auto|intros _ ->; auto]).
    refine (eq_trans (param_first old key k v e [] P) _). unfold first_param. cbn [find fst]. destruct (beqs k key); reflexivity.
  - destruct (param_no _ _ _ P) as [A B]. change (e ++ [amp] ++ q) with (e ++ amp :: q). rewrite pieces_app by auto.
    refine (eq_trans (param_first old key k v e _ P) _). rewrite IH. unfold first_param. cbn [find fst]. destruct (beqs k key); reflexivity.
Qed.

Lemma precision_read old ps q : query_text ps q ->
  precision_of old q = match first_param (lit "precision") ps with Some v => v | None => [] end.
Proof. intros Q. unfold precision_of. rewrite (query_first old (lit "precision") ps q Q). reflexivity. Qed.

(** QueryEscape is such a client. *)
Lemma hexchar_digit n : n < 16 -> hex_digit (hexchar n) n.
Proof. intros L. right. unfold hexchar. do 16 (destruct n as [|n]; [reflexivity|]). lia. Qed.
Lemma hexchar_other n c : n < 16 -> In c [amp; semi; eqs; plus; percent] -> hexchar n <> c.
Proof.
  intros L I. do 16 (destruct n as [|n]; [destruct I as [<-|[<-|[<-|[<-|[<-|[]]]]]]; discriminate|]). lia.
Qed.
Lemma unreserved_other c d : unreserved c = true -> In d [amp; semi; eqs; plus; percent] -> c <> d.
Proof. intros U I ->. destruct I as [<-|[<-|[<-|[<-|[<-|[]]]]]]; discriminate U. Qed.

Lemma QueryEscape_part s : query_part s (QueryEscape s).
Proof.
  unfold query_part. induction s as [|c s (U & A & B & C)]; cbn [QueryEscape].
  - split; [constructor|]. (split; [|split]); intros [].
  - assert (Hb : (bval c / 16 < 16)%N /\ (bval c mod 16 < 16)%N).
    { split; [apply N.div_lt_upper_bound; [lia|]; apply (N_ascii_bounded c)|apply N.mod_lt; lia]. }
    destruct (unreserved c) eqn:Uc; [|destruct (Ascii.eqb_spec c sp) as [->|Ns]]; cbn [app].
    + pose proof (fun d I => unreserved_other c d Uc I) as N. split; [apply ue_byte; [apply N; cbn; tauto|apply N; cbn; tauto|exact U]|].
      (split; [|split]); (intros [X|X]; [revert X; apply N; cbn; tauto|auto]).
    + split; [apply ue_plus; exact U|]. (split; [|split]); intros [X|X]; auto; discriminate X.
    + set (x := N.to_nat (bval c / 16)). set (y := N.to_nat (bval c mod 16)).
      assert (Lx : x < 16) by (unfold x; lia). assert (Ly : y < 16) by (unfold y; lia).
      split.
      * apply (ue_hex _ _ x y); [apply hexchar_digit; auto|apply hexchar_digit; auto| |exact U].
        rewrite (N.div_mod (bval c) 16) at 1 by lia. unfold x, y. lia.
      * (split; [|split]); intros [X|[X|[X|X]]]; auto; try discriminate X; revert X; apply hexchar_other; cbn; auto.
Qed.

Lemma query_text_exists ps : exists q, query_text ps q.
Proof.
  induction ps as [|[k v] ps [q Q]]; [exists []; constructor|].
  assert (P : param_text k v (QueryEscape k ++ [eqs] ++ QueryEscape v)) by (exists (QueryEscape k), (QueryEscape v); auto using QueryEscape_part).
  destruct ps as [|p ps]; [eexists; apply qt_one; exact P|]. eexists. apply qt_more; [exact P|discriminate|exact Q].
Qed.

(** Requests that are the same for the listener. *)
Lemma as_write_same old r r' ps ps' : r_path r = lit "/write" -> r_path r' = lit "/write" -> query_text ps (r_query r) -> query_text ps' (r_query r') ->
  match first_param (lit "precision") ps with Some v => v | None => [] end = match first_param (lit "precision") ps' with Some v => v | None => [] end ->
  (r_body r, r_sched r, r_rderr r, r_eager r) = (r_body r', r_sched r', r_rderr r', r_eager r') ->
  as_write old r = as_write old r'.
Proof.
  intros P P' Q Q' E B. unfold as_write. rewrite P, P', (precision_read old _ _ Q), (precision_read old _ _ Q'), E.
  inversion B. reflexivity.
Qed.
