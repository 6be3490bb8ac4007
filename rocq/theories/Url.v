(** The request the writer sends to InfluxDB: URL and credentials, and how an HTTP server written in Go (InfluxDB) reads them. *)
From Verif Require Import Base Convert Config.
Local Open Scope nat_scope.

Definition amp : ascii := "&"%char.
Definition semi : ascii := ";"%char.
Definition plus : ascii := "+"%char.
Definition percent : ascii := "%"%char.
Definition hash : ascii := "#"%char.
Definition quest : ascii := "?"%char.
Definition colon : ascii := ":"%char.

(** writer/influxclient.go:29: fmt.Sprintf(protocol://address:port/write?db=name). *)
Definition influxURL (c : cfg) : bytes :=
  c_db_protocol c ++ lit "://" ++ c_db_address c ++ [colon] ++ FormatInt (c_db_port c) ++ lit "/write?db=" ++ c_db_name c.

(** s up to, and behind, the first byte x. *)
Fixpoint before (x : ascii) (s : bytes) : bytes :=
  match s with [] => [] | c :: r => if Ascii.eqb c x then [] else c :: before x r end.
Fixpoint behind (x : ascii) (s : bytes) : option bytes :=
  match s with [] => None | c :: r => if Ascii.eqb c x then Some r else behind x r end.

(** Go net/url: control bytes make url.Parse (in http.NewRequest, influxclient.go:56) fail. *)
Definition control (c : ascii) : bool := N.ltb (bval c) 32 || N.eqb (bval c) 127.

(** The query part of the request line: what is between the first ? and the first # of the URL (Go net/url Parse); a space
    in it makes the request line unreadable.  None: no request reaches the server's handler. *)
Definition sent_query (url : bytes) : option bytes :=
  if existsb control url then None
  else match behind quest (before hash url) with
       | Some q => if memb q sp then None else Some q
       | None => Some []
       end.

(** Go net/url QueryUnescape. *)
Definition hexval (c : ascii) : option N :=
  let n := bval c in
  if N.leb 48 n && N.leb n 57 then Some (n - 48)%N
  else if N.leb 97 n && N.leb n 102 then Some (n - 87)%N
  else if N.leb 65 n && N.leb n 70 then Some (n - 55)%N
  else None.
Fixpoint query_unescape (s : bytes) : option bytes :=
  match s with
  | [] => Some []
  | c :: r =>
      if Ascii.eqb c percent then
        match r with
        | a :: b :: r' =>
            match hexval a, hexval b, query_unescape r' with
            | Some x, Some y, Some t => Some (ascii_of_N (16 * x + y) :: t)
            | _, _, _ => None
            end
        | _ => None
        end
      else match query_unescape r with
           | Some t => Some ((if Ascii.eqb c plus then sp else c) :: t)
           | None => None
           end
  end.

(** The parts of a query, separated by & and, before Go 1.17, by ; as well ([old]). *)
Fixpoint pieces (old : bool) (q : bytes) : list bytes :=
  match q with
  | [] => [[]]
  | c :: r => if Ascii.eqb c amp || (old && Ascii.eqb c semi) then [] :: pieces old r
              else match pieces old r with p :: ps => (c :: p) :: ps | [] => [[c]] end
  end.

(** Go net/url ParseQuery and Values.Get: the value of the first readable pair with this key. *)
Fixpoint first_value (old : bool) (key : bytes) (ps : list bytes) : option bytes :=
  match ps with
  | [] => None
  | p :: r =>
      if match p with [] => true | _ => false end || (negb old && memb p semi) then first_value old key r
      else match query_unescape (before eqs p), query_unescape (match behind eqs p with Some v => v | None => [] end) with
           | Some k, Some v => if beqs k key then Some v else first_value old key r
           | _, _ => first_value old key r
           end
  end.

(** The database InfluxDB is asked to write to. *)
Definition db_seen (old : bool) (url : bytes) : option bytes :=
  match sent_query url with
  | Some q => first_value old (lit "db") (pieces old q)
  | None => None
  end.

(** writer/influxclient.go:61-63: credentials are sent if there is a user name.  net/http joins them with a colon (and
    encodes that in base 64, which is undone by the server). *)
Definition credentials (c : cfg) : option bytes :=
  match c_db_user c with [] => None | u => Some (u ++ [colon] ++ c_db_pass c) end.
(** The server takes what is before the first colon for the user name. *)
Definition login_seen (h : option bytes) : option (bytes * bytes) :=
  match h with
  | Some s => match behind colon s with Some p => Some (before colon s, p) | None => None end
  | None => None
  end.

(** The control bytes, for the specification. *)
Definition control_byte (c : ascii) : Prop := (bval c < 32)%N \/ bval c = 127%N.
(** A name that means itself in a URL's query. *)
Definition plain_db (n : bytes) : Prop := forall c, In c n -> ~ In c [hash; amp; semi; percent; plus; sp] /\ ~ control_byte c.
(** The rest of the URL is unremarkable. *)
Definition plain_host (s : bytes) : Prop := forall c, In c s -> ~ In c [hash; quest] /\ ~ control_byte c.

(** Reading an escaped query, written independently: + is a space, %XY the byte with that hexadecimal value, other bytes
    (except %) mean themselves. *)
Definition hex_digit (a : ascii) (x : nat) : Prop :=
  nth_error (lit "0123456789abcdef") x = Some a \/ nth_error (lit "0123456789ABCDEF") x = Some a.
Inductive unescapes : bytes -> bytes -> Prop :=
| ue_nil : unescapes [] []
| ue_plus s t : unescapes s t -> unescapes (plus :: s) (sp :: t)
| ue_byte c s t : c <> plus -> c <> percent -> unescapes s t -> unescapes (c :: s) (c :: t)
| ue_hex a b x y d s t : hex_digit a x -> hex_digit b y -> bval d = N.of_nat (16 * x + y) -> unescapes s t -> unescapes (percent :: a :: b :: s) (d :: t).

(* ------------------------------------------------------------------ *)

Lemma control_iff c : control c = false <-> ~ control_byte c.
Proof. unfold control, control_byte. destruct (N.ltb_spec (bval c) 32), (N.eqb_spec (bval c) 127); cbn [orb]; split; intros H1; try discriminate; try reflexivity; try tauto; try (intros [X|X]; lia). Qed.

Lemma hexval_digit a n : hexval a = Some n <-> hex_digit a (N.to_nat n).
Proof.
  split.
  - intros H. assert (E : n = match hexval a with Some k => k | None => 0%N end) by (rewrite H; reflexivity).
    unfold hex_digit. destruct a as [[] [] [] [] [] [] [] []]; vm_compute in H; try discriminate H; injection H as <-; vm_compute; auto.
  - intros H. assert (L : N.to_nat n < 16) by (destruct H as [H|H]; (eapply Nat.lt_le_trans; [apply nth_error_Some; rewrite H; discriminate|apply Nat.le_refl])).
    unfold hex_digit in H. assert (En : n = N.of_nat (N.to_nat n)) by lia. rewrite En. destruct (N.to_nat n) as [|m]; [destruct H as [H|H]; injection H as <-; reflexivity|].
    do 15 (destruct m as [|m]; [destruct H as [H|H]; injection H as <-; reflexivity|]). lia.
Qed.

Lemma unescape_iff s : forall t, query_unescape s = Some t <-> unescapes s t.
Proof.
  remember (length s) as n eqn:En. revert s En. induction n as [n IH] using (well_founded_induction lt_wf). intros s En t. subst n.
  destruct s as [|c r]; [split; [intros H; injection H as <-; constructor|intros H; inversion H; reflexivity]|]. cbn [query_unescape].
  destruct (Ascii.eqb_spec c percent) as [->|Nc].
  - split.
    + destruct r as [|a [|b r]]; try discriminate. destruct (hexval a) as [x|] eqn:Ea; try discriminate. destruct (hexval b) as [y|] eqn:Eb; try discriminate.
      destruct (query_unescape r) as [t'|] eqn:E; try discriminate. intros H. apply (f_equal (fun o => match o with Some x => x | None => [] end)) in H. cbv beta iota in H. subst t. apply hexval_digit in Ea, Eb.
      assert (Lx : N.to_nat x < 16 /\ N.to_nat y < 16).
      { split; [destruct Ea as [X|X]|destruct Eb as [X|X]]; eapply Nat.lt_le_trans; try (apply nth_error_Some; rewrite X; discriminate); apply Nat.le_refl. }
      apply (ue_hex a b (N.to_nat x) (N.to_nat y)); auto.
      * unfold bval. rewrite N_ascii_embedding by lia. lia.
      * apply (IH (length r)); cbn; auto; lia.
    + intros H. inversion H as [|? ? ? E|? ? ? ? E|a b x y d s t' Ha Hb Ed U E1 E2]; subst; try congruence.
      replace x with (N.to_nat (N.of_nat x)) in Ha by lia. replace y with (N.to_nat (N.of_nat y)) in Hb by lia. apply hexval_digit in Ha, Hb. rewrite Ha, Hb.
      assert (X : query_unescape s = Some t') by (apply (IH (length s)); cbn; auto; lia). rewrite X. do 2 f_equal. rewrite <- (ascii_N_embedding d). f_equal. unfold bval in Ed. lia.
  - split.
    + destruct (query_unescape r) as [t'|] eqn:E; try discriminate. intros H. injection H as <-.
      assert (U : unescapes r t') by (apply (IH (length r)); cbn; auto). destruct (Ascii.eqb_spec c plus) as [->|Np]; constructor; auto.
    + intros H. inversion H as [|s t' U|? s t' Np _ U|]; subst; try congruence.
      * assert (X : query_unescape r = Some t') by (apply (IH (length r)); cbn; auto). rewrite X. reflexivity.
      * assert (X : query_unescape r = Some t') by (apply (IH (length r)); cbn; auto). rewrite X. destruct (Ascii.eqb_spec c plus); [contradiction|reflexivity].
Qed.

Lemma unescape_length s : forall t, query_unescape s = Some t -> length t <= length s /\ (In percent s -> length t < length s).
Proof.
  remember (length s) as n eqn:En. revert s En. induction n as [n IH] using (well_founded_induction lt_wf). intros s En t H. subst n.
  destruct s as [|c r]; [inversion H; subst; cbn; split; [lia|intros []]|]. cbn [query_unescape] in H.
  destruct (Ascii.eqb_spec c percent) as [->|Nc].
  - destruct r as [|a [|b r]]; try discriminate. destruct (hexval a); try discriminate. destruct (hexval b); try discriminate.
    destruct (query_unescape r) as [t'|] eqn:E; try discriminate. inversion H; subst. destruct (IH (length r)) with (s := r) (t := t') as [L _]; cbn; auto; lia.
  - destruct (query_unescape r) as [t'|] eqn:E; try discriminate. inversion H; subst. destruct (IH (length r)) with (s := r) (t := t') as [L P]; cbn; auto.
    split; [lia|]. intros [I|I]; [congruence|]. specialize (P I). lia.
Qed.

Lemma unescape_plain s : ~ In percent s -> query_unescape s = Some (map (fun c => if Ascii.eqb c plus then sp else c) s).
Proof.
  induction s as [|c r IH]; intros N; auto. cbn [query_unescape map]. destruct (Ascii.eqb_spec c percent) as [->|Nc]; [destruct N; left; auto|].
  rewrite IH; auto. intros I; apply N; right; auto.
Qed.

Lemma unescape_self s : query_unescape s = Some s <-> ~ In percent s /\ ~ In plus s.
Proof.
  split.
  - intros H. assert (N : ~ In percent s) by (intros I; apply unescape_length in H; destruct H as [_ H]; specialize (H I); lia).
    split; auto. rewrite unescape_plain in H by auto. injection H as E. clear N. induction s as [|c s IH]; [intros []|].
    cbn [map] in E. pose proof (f_equal (@tl _) E) as E2. pose proof (f_equal (hd sp) E) as E1. cbn [tl hd] in E1, E2.
    intros [X|I]; [rewrite X in E1; discriminate E1|]. exact (IH E2 I).
  - intros [A B]. rewrite unescape_plain by auto. f_equal. induction s as [|c s IH]; auto. cbn [map].
    destruct (Ascii.eqb_spec c plus) as [->|N]; [destruct B; left; auto|]. f_equal. apply IH; intros I; [apply A|apply B]; right; auto.
Qed.

Lemma before_none x s : ~ In x s -> before x s = s.
Proof. induction s as [|c s IH]; intros N; auto. cbn. destruct (Ascii.eqb_spec c x) as [->|]; [destruct N; left; auto|]. rewrite IH; auto. intros I; apply N; right; auto. Qed.
Lemma before_app x a s : ~ In x a -> before x (a ++ s) = a ++ before x s.
Proof. induction a as [|c a IH]; intros N; auto. cbn. destruct (Ascii.eqb_spec c x) as [->|]; [destruct N; left; auto|]. rewrite IH; auto. intros I; apply N; right; auto. Qed.
Lemma before_hit x a s : ~ In x a -> before x (a ++ x :: s) = a.
Proof. intros N. rewrite before_app by auto. cbn. rewrite Ascii.eqb_refl. apply app_nil_r. Qed.
Lemma behind_hit x a s : ~ In x a -> behind x (a ++ x :: s) = Some s.
Proof. induction a as [|c a IH]; intros N; cbn; [rewrite Ascii.eqb_refl; auto|]. destruct (Ascii.eqb_spec c x) as [->|]; [destruct N; left; auto|]. apply IH. intros I; apply N; right; auto. Qed.
Lemma behind_length x s t : behind x s = Some t -> length t < length s.
Proof. induction s as [|c s IH]; intros H; [discriminate|]. cbn in *. destruct (Ascii.eqb c x); [inversion H; lia|]. specialize (IH H). lia. Qed.
Lemma before_shorter x s : length (before x s) <= length s /\ (In x s -> length (before x s) < length s).
Proof.
  induction s as [|c s [A B]]; [split; [auto|intros []]|]. cbn. destruct (Ascii.eqb_spec c x) as [->|N]; cbn; [lia|]. split; [lia|].
  intros [->|I]; [congruence|]. specialize (B I). lia.
Qed.
Lemma before_not x s c : In c (before x s) -> In c s /\ c <> x.
Proof. induction s as [|d s IH]; intros H; [destruct H|]. cbn in H. destruct (Ascii.eqb_spec d x) as [->|N]; [destruct H|]. destruct H as [->|H]; [split; [left; auto|auto]|]. destruct (IH H). split; [right; auto|auto]. Qed.

Lemma pieces_total old q : list_sum (map (@length _) (pieces old q)) + (length (pieces old q) - 1) = length q /\ pieces old q <> [].
Proof.
  induction q as [|c q [IH Ne]]; [split; [reflexivity|discriminate]|]. cbn [pieces].
  destruct (_ || _); [split; [|discriminate]|]; [|destruct (pieces old q) as [|p ps]; [congruence|split; [|discriminate]]]; cbn [map list_sum fold_right length] in *; unfold list_sum in *; cbn [fold_right] in *.
  - destruct (pieces old q) as [|p ps]; [congruence|]. cbn [map fold_right length] in *. change (length q) with (@length ascii q) in *. lia.
  - lia.
Qed.

Lemma first_value_length old key ps v : first_value old key ps = Some v -> exists p, In p ps /\ (v = [] \/ length v < length p).
Proof.
  induction ps as [|p ps IH]; intros H; [discriminate|]. cbn [first_value] in H.
  destruct (_ || _); [destruct (IH H) as (x & I & L); exists x; split; [right; auto|auto]|].
  assert (R : first_value old key ps = Some v -> exists p0, In p0 (p :: ps) /\ (v = [] \/ length v < length p0)) by (intros H0; destruct (IH H0) as (x & I & L); exists x; split; [right; auto|auto]).
  destruct (query_unescape (before eqs p)) as [k|]; [|auto].
  destruct (behind eqs p) as [w|] eqn:B.
  - destruct (query_unescape w) as [v'|] eqn:U; [|auto]. destruct (beqs k key); [|auto]. inversion H; subst.
    exists p. split; [left; auto|]. right. apply unescape_length in U. destruct U as [U _]. apply behind_length in B. lia.
  - cbn [query_unescape] in H. destruct (beqs k key); [|auto]. inversion H; subst. exists p. split; [left; auto|auto].
Qed.

Lemma pieces_one old q : (forall c, In c q -> c <> amp /\ (old = true -> c <> semi)) -> pieces old q = [q].
Proof.
  induction q as [|c q IH]; intros H; auto. cbn [pieces]. destruct (H c (or_introl eq_refl)) as [A B].
  destruct (Ascii.eqb_spec c amp); [congruence|]. rewrite IH by (intros d I; apply H; right; auto).
  destruct old; cbn [andb orb]; auto. destruct (Ascii.eqb_spec c semi) as [X|]; auto. destruct (B eq_refl X).
Qed.

Lemma pieces_step old c q : c <> amp -> c <> semi -> exists p ps, pieces old q = p :: ps /\ pieces old (c :: q) = (c :: p) :: ps.
Proof.
  intros A B. destruct (pieces_total old q) as [_ Ne]. destruct (pieces old q) as [|p ps] eqn:E; [congruence|]. exists p, ps. split; auto.
  cbn [pieces]. rewrite E. destruct (Ascii.eqb_spec c amp); [congruence|]. destruct (Ascii.eqb_spec c semi); [congruence|]. rewrite Bool.andb_false_r. reflexivity.
Qed.

Lemma pieces_head old q : exists p ps, pieces old q = p :: ps /\ ((ps = [] /\ p = q /\ forall c, In c q -> c <> amp /\ (old = true -> c <> semi)) \/ length p < length q).
Proof.
  induction q as [|c q (p & ps & E & IH)]; [exists [], []; split; auto; left; repeat split; auto; intros []|].
  cbn [pieces]. rewrite E. destruct (Ascii.eqb_spec c amp) as [->|A]; [exists [], (p :: ps); split; auto; right; cbn; lia|].
  destruct (old && Ascii.eqb c semi) eqn:B; [exists [], (p :: ps); split; auto; right; cbn; lia|].
  exists (c :: p), ps. split; auto. destruct IH as [(-> & -> & H)|L]; [left|right; cbn; lia]. repeat split; auto; intros; [destruct H0 as [<-|H0]; auto; exact (proj1 (H _ H0))|].
  destruct H0 as [<-|H0]; [|exact (proj2 (H _ H0) H1)]. subst old. cbn in B. intros ->. discriminate B.
Qed.

Lemma list_sum_in x (l : list nat) : In x l -> x <= list_sum l.
Proof. induction l as [|y l IH]; intros H; [destruct H|]. unfold list_sum in *. cbn. destruct H as [->|H]; [lia|specialize (IH H); lia]. Qed.

(** The value of db in the query db=w. *)
Lemma db_value old w v : w = v \/ length w < length v ->
  (first_value old (lit "db") (pieces old (lit "db=" ++ w)) = Some v <->
   w = v /\ forall c, In c v -> ~ In c [amp; semi; percent; plus]).
Proof.
  intros Wv. assert (Lw : length w <= length v) by (destruct Wv as [->|]; lia). change (lit "db=" ++ w) with ("d"%char :: "b"%char :: "="%char :: w).
  destruct (pieces_step old "="%char w) as (p & ps & E0 & E1); [discriminate|discriminate|].
  assert (E2 : pieces old ("d"%char :: "b"%char :: "="%char :: w) = ("d"%char :: "b"%char :: "="%char :: p) :: ps).
  { destruct (pieces_step old "b"%char ("="%char :: w)) as (p2 & ps2 & E2 & E3); [discriminate|discriminate|]. rewrite E1 in E2. inversion E2; subst.
    destruct (pieces_step old "d"%char ("b"%char :: "="%char :: w)) as (p4 & ps4 & E4 & E5); [discriminate|discriminate|]. rewrite E3 in E4. inversion E4; subst. exact E5. }
  rewrite E2. clear E1 E2. destruct (pieces_head old w) as (p' & ps' & E & H). rewrite E0 in E. inversion E; subst p' ps'. clear E.
  cbn [first_value orb]. change (memb ("d"%char :: "b"%char :: "="%char :: p) semi) with (memb p semi).
  change (before eqs ("d"%char :: "b"%char :: "="%char :: p)) with (lit "db"). change (behind eqs ("d"%char :: "b"%char :: "="%char :: p)) with (Some p).
  change (query_unescape (lit "db")) with (Some (lit "db")). cbv iota. change (beqs (lit "db") (lit "db")) with true. cbv iota.
  assert (Later : first_value old (lit "db") ps = Some v -> False).
  { intros F. apply first_value_length in F. destruct F as (x & Ix & F). destruct H as [(-> & _ & _)|H]; [destruct Ix|].
    destruct (pieces_total old w) as [T _]. rewrite E0 in T. cbn [map length] in T. unfold list_sum in T. cbn [fold_right] in T. fold (list_sum (map (@length ascii) ps)) in T.
    pose proof (list_sum_in (length x) (map (@length _) ps) (in_map _ _ _ Ix)). change (list ascii) with bytes in *. destruct F as [->|F]; [cbn in Lw; lia|]. 
    destruct ps as [|y ps]; [destruct Ix|]. cbn [length] in T. lia. }
  assert (First : query_unescape p = Some v -> w = v /\ p = v /\ ~ In percent v /\ ~ In plus v /\ forall c, In c v -> c <> amp /\ (old = true -> c <> semi)).
  { intros U. pose proof (unescape_length _ _ U) as [L _]. destruct H as [(-> & -> & H)|H]; [|lia]. destruct Wv as [->|]; [|lia].
    apply unescape_self in U. destruct U. auto. }
  split.
  - destruct (negb old && memb p semi) eqn:Sm; [intros F; destruct (Later F)|]. destruct (query_unescape p) as [x|] eqn:U; [|intros F; destruct (Later F)].
    intros F. inversion F; subst x. destruct (First eq_refl) as (-> & -> & A & B & C). split; auto. intros c I [<-|[<-|[<-|[<-|[]]]]]; try tauto.
    + destruct (C _ I); auto.
    + destruct (C _ I) as [_ D]. destruct old; [exact (D eq_refl eq_refl)|]. cbn in Sm. apply memb_In in I. congruence.
  - intros (-> & Pl). destruct H as [(-> & -> & H)|H].
    + assert (memb v semi = false) as ->.
      { destruct (memb v semi) eqn:M; auto. apply memb_In in M. destruct (Pl _ M). cbn; auto. }
      rewrite Bool.andb_false_r. assert (U : query_unescape v = Some v). { apply unescape_self. split; intros I; apply (Pl _ I); cbn; auto. }
      rewrite U. reflexivity.
    + exfalso. assert (X : pieces old v = [v]). { apply pieces_one. intros c I. specialize (Pl c I). split; [|intros _]; intros ->; apply Pl; cbn; auto. }
      rewrite E0 in X. inversion X; subst. lia.
Qed.

Lemma existsb_none (f : ascii -> bool) s : existsb f s = false <-> forall c, In c s -> f c = false.
Proof.
  split.
  - intros H c I. destruct (f c) eqn:E; auto. assert (existsb f s = true) by (apply existsb_exists; eauto). congruence.
  - intros H. destruct (existsb f s) eqn:E; auto. apply existsb_exists in E. destruct E as (c & I & F). rewrite H in F; auto.
Qed.

Lemma dec_digits_plain f : forall n acc c, In c (dec_digits f n acc) -> (48 <= bval c <= 57)%N \/ In c acc.
Proof.
  induction f as [|f IH]; intros n acc c H; [right; exact H|]. cbn [dec_digits] in H.
  assert (D : (48 <= bval (digit_chr (n mod 10)) <= 57)%N).
  { pose proof (Z.mod_pos_bound n 10 ltac:(lia)). unfold digit_chr, bval. rewrite N_ascii_embedding by lia. lia. }
  destruct (n / 10 =? 0)%Z; [destruct H as [<-|H]; auto|]. destruct (IH _ _ _ H) as [X|[<-|X]]; auto.
Qed.
Lemma FormatInt_plain z c : In c (FormatInt z) -> (48 <= bval c <= 57)%N \/ c = "-"%char.
Proof.
  unfold FormatInt. destruct (z <? 0)%Z; intros H; [destruct H as [<-|H]; auto|]; destruct (dec_digits_plain _ _ _ _ H) as [X|[]]; auto.
Qed.

Lemma db_seen_name old c : plain_host (c_db_protocol c ++ c_db_address c) ->
  db_seen old (influxURL c) =
  if existsb control (c_db_name c) then None
  else if memb (before hash (c_db_name c)) sp then None else first_value old (lit "db") (pieces old (lit "db=" ++ before hash (c_db_name c))).
Proof.
  intros Ph. set (v := c_db_name c). set (P := c_db_protocol c ++ lit "://" ++ c_db_address c ++ [colon] ++ FormatInt (c_db_port c) ++ lit "/write").
  assert (EU : influxURL c = P ++ quest :: lit "db=" ++ v).
  { unfold influxURL, P. rewrite <- !app_assoc. reflexivity. }
  assert (PP : plain_host P).
  { intros x I. unfold P in I. repeat rewrite in_app_iff in I.
    destruct I as [I|[I|[I|[I|[I|I]]]]].
    - apply Ph, in_or_app; auto.
    - cbn in I. destruct I as [<-|[<-|[<-|[]]]]; (split; [intros [X|[X|[]]]; discriminate X|apply control_iff; reflexivity]).
    - apply Ph, in_or_app; auto.
    - cbn in I. destruct I as [<-|[]]; (split; [intros [X|[X|[]]]; discriminate X|apply control_iff; reflexivity]).
    - apply FormatInt_plain in I. destruct I as [I| ->].
      + split; [intros [X|[X|[]]]; subst x; vm_compute in I; destruct I as [I1 I2]; congruence|]. apply control_iff; unfold control. destruct (N.ltb_spec (bval x) 32); [lia|]. destruct (N.eqb_spec (bval x) 127); [lia|reflexivity].
      + split; [intros [X|[X|[]]]; discriminate X|apply control_iff; reflexivity].
    - cbn in I. destruct I as [<-|[<-|[<-|[<-|[<-|[<-|[]]]]]]]; (split; [intros [X|[X|[]]]; discriminate X|apply control_iff; reflexivity]). }
  rewrite EU. unfold db_seen, sent_query.
  assert (Ec : existsb control (P ++ quest :: lit "db=" ++ v) = existsb control v).
  { rewrite existsb_app. assert (existsb control P = false) as -> by (apply existsb_none; intros x I; apply control_iff, PP; auto). reflexivity. }
  rewrite Ec. clear Ec EU.
  assert (Eb : before hash (P ++ quest :: lit "db=" ++ v) = P ++ quest :: lit "db=" ++ before hash v).
  { rewrite before_app; [reflexivity|]. intros I. apply PP in I. destruct I as [I _]. apply I. cbn; auto. }
  rewrite Eb, behind_hit by (intros I; apply PP in I; destruct I as [I _]; apply I; cbn; auto). change (memb (lit "db=" ++ before hash v) sp) with (memb (before hash v) sp). destruct (existsb control v); [reflexivity|]. destruct (memb (before hash v) sp); reflexivity.
Qed.

(** The database of a name without # & ; space and control bytes: what the name means as an escaped query. *)
Lemma db_unescaped old c : plain_host (c_db_protocol c ++ c_db_address c) ->
  (forall x, In x (c_db_name c) -> ~ In x [hash; amp; semi; sp] /\ ~ control_byte x) ->
  db_seen old (influxURL c) = query_unescape (c_db_name c).
Proof.
  intros Ph Pl. rewrite db_seen_name by exact Ph. set (v := c_db_name c) in *.
  assert (existsb control v = false) as -> by (apply existsb_none; intros x I; apply control_iff, Pl; auto).
  assert (before hash v = v) as ->. { apply before_none. intros I. apply Pl in I. destruct I as [I _]. apply I. cbn; auto. }
  assert (Hs : memb v sp = false). { destruct (memb v sp) eqn:M; auto. apply memb_In in M. apply Pl in M. destruct M as [M _]. destruct M. cbn; auto 10. }
  assert (Hm : memb v semi = false). { destruct (memb v semi) eqn:M; auto. apply memb_In in M. apply Pl in M. destruct M as [M _]. destruct M. cbn; auto 10. }
  rewrite Hs. rewrite pieces_one.
  - cbn [first_value]. change (memb (lit "db=" ++ v) semi) with (memb v semi). rewrite Hm. rewrite Bool.andb_false_r. cbn [lit app list_ascii_of_string orb].
    change (before eqs ("d"%char :: "b"%char :: "="%char :: v)) with (lit "db"). change (behind eqs ("d"%char :: "b"%char :: "="%char :: v)) with (Some v).
    change (query_unescape (lit "db")) with (Some (lit "db")). cbv iota. change (beqs (lit "db") (lit "db")) with true. cbv iota. destruct (query_unescape v); reflexivity.
  - intros x I. apply in_app_iff in I. destruct I as [I|I].
    + cbn in I. destruct I as [<-|[<-|[<-|[]]]]; (split; [|intros _]; discriminate).
    + apply Pl in I. destruct I as [I _]. split; [|intros _]; intros ->; apply I; cbn; auto.
Qed.

Theorem db_iff old c : plain_host (c_db_protocol c ++ c_db_address c) ->
  (db_seen old (influxURL c) = Some (c_db_name c) <-> plain_db (c_db_name c)).
Proof.
  intros Ph. rewrite db_seen_name by exact Ph. set (v := c_db_name c).
  set (w := before hash v). assert (Wv : w = v \/ length w < length v).
  { destruct (in_dec ascii_dec hash v) as [I|I]; [right; apply before_shorter; auto|left; apply before_none; auto]. }
  split.
  - destruct (existsb control v) eqn:Ec; [discriminate|]. destruct (memb w sp) eqn:Es; [discriminate|]. intros F. apply db_value in F; auto.
    destruct F as [Ew Pl]. intros x I. split; [|apply control_iff, existsb_none with (s := v); auto]. intros [X|[X|[X|[X|[X|[X|[]]]]]]].
    + rewrite <- Ew in I. apply before_not in I. destruct I; congruence.
    + apply (Pl _ I). subst x. cbn; auto.
    + apply (Pl _ I). subst x. cbn; auto.
    + apply (Pl _ I). subst x. cbn; auto.
    + apply (Pl _ I). subst x. cbn; auto.
    + rewrite <- Ew in I. subst x. apply memb_In in I. congruence.
  - intros Pl. assert (Ew : w = v). { apply before_none. intros I. apply Pl in I. destruct I as [I _]. apply I. cbn; auto. }
    assert (existsb control v = false) as -> by (apply existsb_none; intros x I; apply control_iff, Pl; auto).
    assert (memb w sp = false) as ->. { destruct (memb w sp) eqn:M; auto. rewrite Ew in M. apply memb_In in M. apply Pl in M. destruct M as [M _]. destruct M. cbn; auto 10. }
    apply db_value; auto. split; auto. intros x I X. apply Pl in I. destruct I as [I _]. apply I. cbn in *. tauto.
Qed.

Theorem login_user c : c_db_user c <> [] ->
  (login_seen (credentials c) = Some (c_db_user c, c_db_pass c) <-> ~ In colon (c_db_user c)).
Proof.
  intros Ne. unfold credentials. destruct (c_db_user c) as [|x u'] eqn:E; [congruence|]. set (u := x :: u') in *. cbn [login_seen]. split.
  - intros H I. destruct (behind colon (u ++ [colon] ++ c_db_pass c)) as [q|] eqn:B; [|discriminate].
    assert (Hu : before colon (u ++ [colon] ++ c_db_pass c) = u) by congruence. assert (In colon (before colon (u ++ [colon] ++ c_db_pass c))) by (rewrite Hu; exact I). apply before_not in H0. destruct H0; congruence.
  - intros N. change ([colon] ++ c_db_pass c) with (colon :: c_db_pass c). rewrite behind_hit, before_hit by auto. reflexivity.
Qed.

(** A colon in the user name moves the rest of it into the password. *)
Theorem login_colon c u r : c_db_user c = u ++ colon :: r -> ~ In colon u ->
  login_seen (credentials c) = Some (u, r ++ [colon] ++ c_db_pass c).
Proof.
  intros E N. unfold credentials. destruct (c_db_user c) as [|x t] eqn:Eu; [destruct u; discriminate E|]. rewrite E. cbn [login_seen].
  replace ((u ++ colon :: r) ++ [colon] ++ c_db_pass c) with (u ++ colon :: (r ++ [colon] ++ c_db_pass c)) by (rewrite <- app_assoc; reflexivity).
  rewrite behind_hit, before_hit by auto. reflexivity.
Qed.

Theorem login_anonymous c : c_db_user c = [] -> login_seen (credentials c) = None.
Proof. intros H. unfold credentials. rewrite H. reflexivity. Qed.
