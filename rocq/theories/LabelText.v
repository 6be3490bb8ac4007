(** Label values are written into the statistics as they are (C121).
    /repo/prometheus/metric.go:82-103 (LabelsToBytes: name, equals sign, quote, value, quote; no escaping), /repo/stats/prometheus.go:26-62,
    and the values come from the configuration: name (/repo/config/config.go:39, not looked at by Validate, 112-210; 244-246 takes
    the file's name if there is none), the subjects of rules and influxdb_dbname (/repo/filter/filter.go:167-187,
    /repo/writer/writer.go:250-275, /repo/downsampler/downsampler.go:188-206, /repo/listener/listener.go:419). *)
From Verif Require Import Base Convert NumSpec NumProofs Prom RulesSpec RulesProofs PromSpec PromParse PromProofs PromMonitor PromTop PromStats.
Local Open Scope nat_scope.

(** The labels of a report. *)
Definition report_labels (r : report) : list (bytes * bytes) :=
  match r with RSnapshot _ _ ls => ls | RCounter _ _ _ ls => ls end.

(** A label name that survives the wire format (those in /repo are constants: component, host, name, rule, ...). *)
Definition plain_label_name (n : bytes) : Prop := no_eqdq n /\ ~ In nl n /\ hd_error n <> Some rbrace.

(** Reports in which everything but the values of the labels is as it should be: distinct plain names of counters and labels,
    at least one counter, a time in nanoseconds.  Nothing is said of the values. *)
Definition report_frame_ok (r : report) : Prop :=
  Forall (fun l : bytes * bytes => plain_label_name (fst l)) (report_labels r) /\ NoDup (map fst (report_labels r)) /\
  match r with
  | RSnapshot counters nanos _ =>
      counters <> [] /\ NoDup (map fst counters) /\ Forall (fun c : bytes * Z => plain_name (fst c)) counters /\ int64 nanos
  | RCounter name value nanos _ => plain_name name /\ int64 value /\ int64 nanos
  end.

(** A value without quotes and newlines. *)
Definition one_piece (v : bytes) : Prop := ~ In dq v /\ ~ In nl v.

(** What Prometheus reads where a value is quoted: in the exposition format a backslash escapes a backslash, an n (newline) and a quote (from knowledge; anything
    else behind a backslash stays, as in Prometheus 2's parser). *)
Fixpoint unescape (s : bytes) : bytes :=
  match s with
  | [] => []
  | c :: r =>
      if Ascii.eqb c bsl then
        match r with
        | d :: q => if Ascii.eqb d bsl then bsl :: unescape q else if Ascii.eqb d "n" then nl :: unescape q
                    else if Ascii.eqb d dq then dq :: unescape q else c :: unescape r
        | [] => [c]
        end
      else c :: unescape r
  end.

(** No backslash before a backslash, an n or a quote. *)
Definition no_escape (s : bytes) : Prop := forall p c q, s = p ++ bsl :: c :: q -> c <> bsl /\ c <> "n"%char /\ c <> dq.

Lemma no_escape_cons c r : no_escape (c :: r) -> no_escape r.
Proof. intros H p d q ->. apply (H (c :: p) d q). reflexivity. Qed.

Lemma unescape_len : forall n s, length s <= n ->
  length (unescape s) <= length s /\ (length (unescape s) = length s -> unescape s = s /\ no_escape s).
Proof.
  induction n as [|n IH]; intros s Hl.
  { destruct s; [|cbn in Hl; lia]. cbn. split; [lia|]. intros _. split; [reflexivity|]. intros p c q E. destruct p; discriminate. }
  destruct s as [|c r]; [cbn; split; [lia|]; intros _; split; [reflexivity|]; intros p c q E; destruct p; discriminate|].
  assert (Keep : (forall p d q, c :: r = p ++ bsl :: d :: q -> p = [] -> d <> bsl /\ d <> "n"%char /\ d <> dq) -> length r <= n ->
    length (c :: unescape r) <= length (c :: r) /\ (length (c :: unescape r) = length (c :: r) -> c :: unescape r = c :: r /\ no_escape (c :: r))).
  { intros Hd Hr. destruct (IH r Hr) as [A B]. cbn [length]. split; [lia|]. intros E. destruct B as [B1 B2]; [lia|]. split; [congruence|].
    intros p d q Ep. destruct p as [|x p]; [apply (Hd [] d q Ep eq_refl)|]. injection Ep as -> Er. apply (B2 p d q Er). }
  cbn [length] in Hl. cbn [unescape]. destruct (Ascii.eqb c bsl) eqn:Ec.
  - apply Ascii.eqb_eq in Ec. subst c. destruct r as [|d q].
    + cbn. split; [lia|]. intros _. split; [reflexivity|]. intros p c q E. destruct p as [|x [|y p]]; discriminate.
    + cbn [length] in Hl. destruct (IH q ltac:(lia)) as [A _].
      destruct (Ascii.eqb d bsl) eqn:E1; [cbn [length]; split; lia|]. destruct (Ascii.eqb d "n") eqn:E2; [cbn [length]; split; lia|].
      destruct (Ascii.eqb d dq) eqn:E3; [cbn [length]; split; lia|]. apply Keep; [|cbn [length]; lia].
      intros p e q' E ->. injection E as <- _. apply Ascii.eqb_neq in E1, E2, E3. auto.
  - apply Keep; [|lia]. intros p e q' E ->. injection E as -> _. rewrite Ascii.eqb_refl in Ec. discriminate.
Qed.

Lemma unescape_no : forall s, no_escape s -> unescape s = s.
Proof.
  induction s as [|c r IH]; intros H; [reflexivity|]. pose proof (IH (no_escape_cons _ _ H)) as R. cbn [unescape].
  destruct (Ascii.eqb c bsl) eqn:Ec; [|congruence]. apply Ascii.eqb_eq in Ec. subst c. destruct r as [|d q]; [reflexivity|].
  destruct (H [] d q eq_refl) as (H1 & H2 & H3). apply Ascii.eqb_neq in H1, H2, H3. rewrite H1, H2, H3. congruence.
Qed.

(** Prometheus reads the value that was meant exactly if there is nothing in it to unescape. *)
Lemma unescape_iff s : unescape s = s <-> no_escape s.
Proof.
  split; [|apply unescape_no]. intros E. apply (unescape_len (length s) s (le_n _)). congruence.
Qed.

Lemma join_in ls n v : In (n, v) ls -> forall c, In c v -> In c (join_labels ls).
Proof.
  induction ls as [|[n0 v0] r IH]; intros Hi c Hc; [destruct Hi|].
  assert (Here : (n0, v0) = (n, v) -> In c (label_item n0 v0)).
  { intros E. injection E as -> ->. unfold label_item. apply in_app_iff. right. cbn [app]. right. right. apply in_app_iff. left; auto. }
  destruct r as [|l r]; [destruct Hi as [E|[]]; apply Here; auto|].
  change (join_labels ((n0, v0) :: l :: r)) with (label_item n0 v0 ++ [comma] ++ join_labels (l :: r)). apply in_app_iff.
  destruct Hi as [E|Hi]; [left; apply Here; auto|]. right. apply in_app_iff. right. apply IH; auto.
Qed.

(** The values a line says stand in the line. *)
Lemma reads_in line e n v : reads line e -> In (n, v) (e_labels e) -> forall c, In c v -> In c line.
Proof.
  intros (_ & _ & _ & lp & num & -> & Hlp & _) Hi c Hc. apply in_app_iff. right. apply in_app_iff. left.
  inversion Hlp as [x E1 E2|u ls x Hu Hh E1 E2|E1 E2]; subst; [rewrite <- E2 in Hi; destruct Hi| |rewrite <- E2 in Hi; destruct Hi].
  apply in_app_iff. right. apply in_app_iff. left. destruct (label_items_ok _ _ Hu) as (-> & _). eapply join_in; eauto.
Qed.

Lemma says_values data es : says data es -> forall e n v, In e es -> In (n, v) (e_labels e) -> one_piece v.
Proof.
  intros (lines & (Fl & _) & F) e n v He Hv.
  assert (H : exists line, In line lines /\ reads line e).
  { clear Fl. induction F as [|l x ls xs Hr F IH]; [destruct He|]. destruct He as [<-|He]; [exists l; split; [left; auto|auto]|].
    destruct (IH He) as (l' & H1 & H2). exists l'. split; [right; auto|auto]. }
  destruct H as (line & Hi & R). split.
  - pose proof (reads_ok _ _ R) as O'. rewrite Forall_forall in O'. apply (O' _ Hv).
  - intros X. rewrite Forall_forall in Fl. apply (Fl line Hi). eapply reads_in; eauto.
Qed.

(** No message whatever says what a report with a quote or a newline in a label value stands for. *)
Lemma reported_values r es data : report_frame_ok r -> reported r es -> says data es ->
  Forall (fun l : bytes * bytes => one_piece (snd l)) (report_labels r).
Proof.
  intros (_ & _ & K) R Sy. apply Forall_forall. intros [n v] Hv. cbn [snd].
  destruct r as [counters nanos ls|name value nanos ls]; cbn [report_labels reported] in *.
  - destruct R as (ls' & [P _] & Pe). destruct K as (N & _). destruct counters as [|c cs]; [congruence|].
    set (e := Entry (fst c) ls' (wrap64 (snd c)) (Z.max 0 (Z.quot nanos 1000000))).
    apply (says_values _ _ Sy e n); [|eapply Permutation_in; [exact P|exact Hv]].
    eapply Permutation_in; [apply Permutation_sym; exact Pe|]. left. reflexivity.
  - destruct R as (ls' & [P _] & ->). eapply (says_values _ _ Sy); [left; reflexivity|]. cbn [e_labels]. eapply Permutation_in; [exact P|exact Hv].
Qed.

Lemma frame_report_ok r : report_frame_ok r -> Forall (fun l : bytes * bytes => one_piece (snd l)) (report_labels r) -> report_ok r.
Proof.
  intros (Fl & Nd & K) V.
  assert (Fp : Forall plain_label (report_labels r)).
  { apply Forall_forall. intros l Hl. rewrite Forall_forall in Fl, V. destruct (Fl l Hl) as (A & B & C), (V l Hl) as [D F]. unfold plain_label. auto 10. }
  destruct r as [counters nanos ls|name value nanos ls]; cbn [report_labels report_ok] in *.
  - destruct K as (_ & A & B & C). auto 10.
  - destruct K as (A & B & C). auto 10.
Qed.

(** ** Without newlines nothing stops the monitor *)

Definition ends_digit (s : bytes) : Prop := exists p d, s = p ++ [d] /\ is_digit d.

Lemma digits_end ds : ds <> [] -> Forall is_digit ds -> ends_digit ds.
Proof.
  intros N F. destruct (exists_last N) as (p & d & ->). exists p, d. split; [reflexivity|]. apply Forall_app in F. destruct F as [_ F]. inversion F; auto.
Qed.

Lemma ends_app a s : ends_digit s -> ends_digit (a ++ s).
Proof. intros (p & d & -> & H). exists (a ++ p), d. split; [apply app_assoc|auto]. Qed.

Lemma FormatInt_ends z : int64 z -> ends_digit (FormatInt z).
Proof.
  intros H. destruct (FormatInt_spec z H) as [(T & _) _]. inversion T as [ds [D1 D2] E|ds [D1 D2] E].
  - apply digits_end; auto.
  - apply (ends_app ["-"%char]). apply digits_end; auto.
Qed.

Lemma served_ends name ls v ms : int64 v -> int64 ms -> ends_digit (served_line name ls v ms).
Proof.
  intros Hv Hm. unfold served_line. apply ends_app. apply (ends_app [sp]). destruct (0 <? ms)%Z.
  - apply ends_app. apply (ends_app [sp]). apply FormatInt_ends; auto.
  - rewrite app_nil_r. apply FormatInt_ends; auto.
Qed.

Lemma items_end u ls : label_items u ls -> exists p, u = p ++ [dq].
Proof.
  induction 1 as [n v Hn Hv|n v u ls Hn Hv Hu (p & ->)].
  - exists (n ++ [eqs; dq] ++ v). unfold label_item. rewrite <- !app_assoc. reflexivity.
  - exists (label_item n v ++ [comma] ++ p). rewrite <- !app_assoc. reflexivity.
Qed.

Lemma truncated_end line : truncated line -> ~ ends_digit line.
Proof.
  intros (_ & name & t & -> & _ & _ & B) (p & d & E & D).
  assert (Go : forall q c, name ++ lbrace :: t = q ++ [c] -> ~ is_digit c -> False).
  { intros q c Eq N. rewrite E in Eq. apply app_inj_tail in Eq. destruct Eq as [_ ->]. auto. }
  assert (N1 : ~ is_digit lbrace) by (unfold is_digit; vm_compute; intuition congruence).
  assert (N2 : ~ is_digit rbrace) by (unfold is_digit; vm_compute; intuition congruence).
  assert (N3 : ~ is_digit dq) by (unfold is_digit; vm_compute; intuition congruence).
  destruct B as [->|[->|(u & ls & Hu & _ & Ht)]].
  - apply (Go name lbrace); auto.
  - apply (Go (name ++ [lbrace]) rbrace); auto. rewrite <- app_assoc. reflexivity.
  - destruct (items_end _ _ Hu) as (q & ->). destruct Ht as [->| ->].
    + apply (Go (name ++ lbrace :: q) dq); auto. rewrite <- app_assoc. reflexivity.
    + apply (Go (name ++ lbrace :: q ++ [dq]) rbrace); auto. exact (app_assoc name (lbrace :: q ++ [dq]) [rbrace]).
Qed.

Lemma join_no_newline ls : Forall (fun l : bytes * bytes => ~ In nl (fst l) /\ ~ In nl (snd l)) ls -> ~ In nl (join_labels ls).
Proof.
  induction 1 as [|[n v] r [H1 H2] F IH]; [intros []|]. cbn [fst snd] in *.
  assert (Hi : ~ In nl (label_item n v)).
  { unfold label_item. cbn [app]. intros X. apply in_app_iff in X. destruct X as [X|[X|[X|X]]]; [auto|discriminate|discriminate|].
    apply in_app_iff in X. destruct X as [X|[X|[]]]; [auto|discriminate]. }
  destruct r as [|l r]; [exact Hi|].
  change (join_labels ((n, v) :: l :: r)) with (label_item n v ++ [comma] ++ join_labels (l :: r)).
  cbn [app]. intros X. apply in_app_iff in X. destruct X as [X|[X|X]]; [auto|discriminate|auto].
Qed.

Lemma served_no_newline name ls v ms : ~ In nl name -> Forall (fun l : bytes * bytes => ~ In nl (fst l) /\ ~ In nl (snd l)) ls ->
  int64 v -> int64 ms -> ~ In nl (served_line name ls v ms).
Proof.
  intros Nn F Hv Hm. pose proof (join_no_newline ls F) as J.
  destruct (FormatInt_facts v Hv) as (_ & _ & Fv & _). destruct (FormatInt_facts ms Hm) as (_ & _ & Fm & _).
  unfold served_line, identity. cbn [app]. intros X. apply in_app_iff in X. destruct X as [X|X].
  - destruct ls as [|l r]; [auto|]. apply in_app_iff in X. destruct X as [X|[X|X]]; [auto|discriminate|].
    apply in_app_iff in X. destruct X as [X|[X|[]]]; [auto|discriminate].
  - destruct X as [X|X]; [discriminate|]. apply in_app_iff in X. destruct X as [X|X]; [auto|].
    destruct (0 <? ms)%Z; [|destruct X]. cbn [app] in X. destruct X as [X|X]; [discriminate|auto].
Qed.

Section Sorted.
  Variable gs : forall A : Type, (A -> A -> bool) -> list A -> list A.
  Hypothesis Hs : sorts gs.

  Lemma arrives_iff r : report_frame_ok r ->
    ((exists es, says (report_text gs r) es /\ reported r es) <-> Forall (fun l : bytes * bytes => one_piece (snd l)) (report_labels r)).
  Proof.
    intros K. split.
    - intros (es & Sy & R). eapply reported_values; eauto.
    - intros V. apply report_says; auto. apply frame_report_ok; auto.
  Qed.

  (** ** A name that stops the monitor *)

  Lemma new_labels_sorted host comp name :
    sort_labels gs (NewLabels host comp name) = [(lit "component", comp); (lit "host", host); (lit "name", name)].
  Proof.
    set (l := [(lit "component", comp); (lit "host", host); (lit "name", name)]).
    assert (P : Permutation (NewLabels host comp name) l) by (unfold NewLabels, l; apply perm_skip; apply perm_swap).
    assert (Il : increasing l).
    { intros i j a b L Ha Hb. unfold l in *. destruct i as [|[|[|i]]], j as [|[|[|j]]]; cbn in *; try lia; try discriminate;
        try (destruct i; discriminate); try (destruct j; discriminate); injection Ha as <-; injection Hb as <-; reflexivity. }
    destruct (sort_labels_spec gs (NewLabels host comp name) Hs) as [Ps _].
    apply increasing_unique; [|exact Il|].
    - apply sort_labels_increasing; auto. eapply Permutation_NoDup; [apply Permutation_map; apply Permutation_sym; exact P|].
      cbn. repeat constructor; cbn; intuition discriminate.
    - eapply Permutation_trans; [apply Permutation_sym; exact Ps|exact P].
  Qed.

  (** The name: anything in one piece, then a quote, a closing brace, a newline, and anything. *)
  Definition breaking (v0 rest : bytes) : bytes := v0 ++ [dq; rbrace; nl] ++ rest.

  Lemma metric_breaks name host comp v0 rest v ms : plain_name name -> one_piece host -> one_piece comp -> one_piece v0 ->
    exists line more, MetricToBytes gs name (NewLabels host comp (breaking v0 rest)) v ms = line ++ nl :: more /\
      ~ In nl line /\ line <> [] /\ ParseMetric line = MPanic.
  Proof.
    intros (N1 & N2 & N3 & N4) [Hh1 Hh2] [Hc1 Hc2] [Hv1 Hv2].
    set (ls := [(lit "component", comp); (lit "host", host); (lit "name", v0)]).
    assert (NQ : forall s : bytes, ~ In dq s -> no_eqdq s) by (intros s N p q ->; apply N; apply in_app_iff; right; right; left; reflexivity).
    assert (Fo : Forall plain_label ls).
    { unfold ls. repeat constructor; cbn [fst snd]; auto; try (apply NQ); try discriminate; cbn; intuition discriminate. }
    assert (Fk : Forall ok_label ls) by (eapply Forall_impl; [|exact Fo]; intros l (A & _ & _ & B & _); split; auto).
    exists (name ++ lbrace :: join_labels ls ++ [rbrace]), (rest ++ [dq; rbrace] ++ [sp] ++ FormatInt v ++ (if (0 <? ms)%Z then [sp] ++ FormatInt ms else [])).
    split; [|split; [|split]].
    - unfold MetricToBytes. rewrite metric_bytes_served, new_labels_sorted. unfold ls, served_line, identity, join_labels, label_item, breaking.
      repeat (rewrite <- app_assoc; cbn [app]). reflexivity.
    - intros X. apply in_app_iff in X. destruct X as [X|[X|X]]; [auto|discriminate|]. apply in_app_iff in X.
      destruct X as [X|[X|[]]]; [|discriminate]. eapply join_no_nl; eauto.
    - destruct name; [congruence|discriminate].
    - apply ParseMetric_panic. split.
      + rewrite app_length. cbn [length]. rewrite app_length. cbn [length]. destruct name; [congruence|]. cbn [length]. lia.
      + exists name, (join_labels ls ++ [rbrace]). split; [reflexivity|]. split; [auto|]. split; [auto|]. right. right.
        exists (join_labels ls), ls. split; [apply label_items_join; [discriminate|auto]|]. split; [|right; reflexivity].
        cbn. discriminate.
  Qed.

  Lemma report_breaks r host comp v0 rest : report_frame_ok r -> report_labels r = NewLabels host comp (breaking v0 rest) ->
    one_piece host -> one_piece comp -> one_piece v0 -> ParseMetrics gs (report_text gs r) = PsPanic.
  Proof.
    intros (_ & _ & K) El Hh Hc Hv.
    assert (Go : forall line more, ~ In nl line -> line <> [] -> ParseMetric line = MPanic -> ParseMetrics gs (line ++ nl :: more) = PsPanic).
    { intros line more N Ne P. unfold ParseMetrics. rewrite split_nl_app by auto. cbn [parse_lines].
      destruct line; [congruence|]. rewrite P. reflexivity. }
    destruct r as [counters nanos ls|name value nanos ls]; cbn [report_labels report_text] in *; subst ls.
    - destruct K as (Ne & ND & Fn & _). set (ls := NewLabels host comp (breaking v0 rest)) in *.
      set (f := fun c : bytes * Z => fst c ++ LabelsToBytes gs ls).
      assert (NDk : NoDup (map f counters)).
      { clear - ND. induction counters as [|c r IH]; cbn [map] in *; [constructor|]. inversion ND; subst. constructor; auto.
        intros X. apply in_map_iff in X. destruct X as (c' & E & Hin). unfold f in E. apply app_inv_tail in E.
        apply H1. apply in_map_iff. exists c'. auto. }
      unfold SnapshotToPrometheus. pose proof (fold_put_new f counters [] NDk) as Ef. unfold f at 1 in Ef. rewrite Ef. clear Ef. cbn [app].
      set (set0 := map (fun c => (f c, c)) counters).
      assert (Ek : map fst set0 = map f counters) by (unfold set0; rewrite map_map; reflexivity).
      assert (NDs : NoDup (map fst set0)) by (rewrite Ek; auto).
      destruct (Hs bytes bltb (map fst set0) bltb_weak) as [P _]. destruct (gs bytes bltb (map fst set0)) as [|k ks] eqn:Eks.
      { apply Permutation_sym, Permutation_nil in P. rewrite Ek in P. destruct counters; [congruence|discriminate]. }
      assert (Hk : In k (map f counters)).
      { rewrite <- Ek. eapply Permutation_in; [apply Permutation_sym; exact P|]. left; auto. }
      apply in_map_iff in Hk. destruct Hk as (c & <- & Hc').
      assert (Hg : map_get (f c) set0 = Some c) by (apply In_get; auto; unfold set0; apply in_map_iff; exists c; auto).
      set (g := fun k : bytes => match map_get k set0 with
                                 | Some c0 => MetricToBytes gs (fst c0) ls (wrap64 (snd c0)) (timeToMillis nanos) ++ [nl]
                                 | None => [] end).
      change (ParseMetrics gs (concat (map g (gs bytes bltb (map fst set0)))) = PsPanic). rewrite Eks. cbn [map concat].
      replace (g (f c)) with (MetricToBytes gs (fst c) ls (wrap64 (snd c)) (timeToMillis nanos) ++ [nl]) by (unfold g; rewrite Hg; reflexivity).
      rewrite Forall_forall in Fn.
      destruct (metric_breaks (fst c) host comp v0 rest (wrap64 (snd c)) (timeToMillis nanos) (Fn c Hc') Hh Hc Hv) as (line & more & E & A1 & A2 & A3).
      fold ls in E. rewrite E. rewrite <- !app_assoc. cbn [app]. apply Go; auto.
    - destruct K as (Kn & _). unfold CounterToPrometheus.
      destruct (metric_breaks name host comp v0 rest value (timeToMillis nanos) Kn Hh Hc Hv) as (line & more & E & A1 & A2 & A3).
      rewrite E. apply Go; auto.
  Qed.

  (** One such report, whatever came before and whatever else is reported: the monitor's process ends. *)
  Lemma monitor_stops evs r host comp v0 rest order more : report_frame_ok r -> report_labels r = NewLabels host comp (breaking v0 rest) ->
    one_piece host -> one_piece comp -> one_piece v0 ->
    mon_run gs [] (evs ++ EMsg (report_text gs r) order :: more) = None.
  Proof.
    intros K El Hh Hc Hv. rewrite mon_run_app. destruct (mon_run gs [] evs) as [[set outs]|]; [|reflexivity].
    cbn [mon_run mon_step]. rewrite (report_breaks r host comp v0 rest) by auto. reflexivity.
  Qed.

  (** A message made of lines that end in a digit does not stop the monitor. *)
  Lemma digits_go data lines : message_lines data lines -> Forall ends_digit lines -> ParseMetrics gs data <> PsPanic.
  Proof.
    intros M F E. apply ParseMetrics_panic in E. destruct E as (lines' & a & l & b & M' & El & _ & P).
    apply message_lines_iff in M, M'. assert (L : lines = a ++ l :: b) by congruence. rewrite L in F. apply Forall_app in F. destruct F as [_ F].
    inversion F as [|x y Hx _]; subst. apply ParseMetric_panic in P. apply (truncated_end _ P Hx).
  Qed.

  Lemma one_line s : s <> [] -> ~ In nl s -> message_lines s [s].
  Proof. intros N Hn. apply message_lines_iff. rewrite split_nl_none by exact Hn. cbn [filter]. destruct s; [congruence|reflexivity]. Qed.

  Lemma put_in (k : bytes) (x c : bytes * Z) (k0 : bytes) set : In (k0, c) (map_put k x set) -> x = c \/ In (k0, c) set.
  Proof.
    induction set as [|[k1 c1] r IH]; cbn [map_put].
    - intros [E|[]]. injection E as -> ->. auto.
    - destruct (beqs k1 k); intros [E|Hi]; [injection E as -> ->; auto|right; right; auto|right; left; auto|].
      destruct (IH Hi); [auto|right; right; auto].
  Qed.

  Lemma fold_put_in (f : bytes * Z -> bytes) : forall l init k c,
    In (k, c) (fold_left (fun s c => map_put (f c) c s) l init) -> In c l \/ In (k, c) init.
  Proof.
    induction l as [|x l IH]; intros init k c H; cbn [fold_left] in H; [auto|].
    destruct (IH _ _ _ H) as [Hi|Hi]; [left; right; auto|]. destruct (put_in _ _ _ _ _ Hi) as [->|X]; [left; left; auto|auto].
  Qed.

  Lemma get_in (k : bytes) (c : bytes * Z) set : map_get k set = Some c -> exists k', In (k', c) set.
  Proof.
    induction set as [|[k1 c1] r IH]; cbn [map_get]; [discriminate|]. destruct (beqs k1 k).
    - intros E. injection E as ->. exists k1. left; auto.
    - intros E. destruct (IH E) as (k' & H). exists k'. right; auto.
  Qed.

  Lemma report_goes r : report_frame_ok r -> Forall (fun l : bytes * bytes => ~ In nl (snd l)) (report_labels r) ->
    ParseMetrics gs (report_text gs r) <> PsPanic.
  Proof.
    intros (Fl & _ & K) V.
    assert (Fs : Forall (fun l : bytes * bytes => ~ In nl (fst l) /\ ~ In nl (snd l)) (sort_labels gs (report_labels r))).
    { eapply Permutation_Forall; [apply (sort_labels_spec gs (report_labels r) Hs)|]. apply Forall_forall. intros l Hl.
      rewrite Forall_forall in Fl, V. split; [apply (Fl l Hl)|apply (V l Hl)]. }
    assert (Go : forall name v ms, ~ In nl name -> int64 v -> int64 ms ->
      ends_digit (MetricToBytes gs name (report_labels r) v ms) /\ ~ In nl (MetricToBytes gs name (report_labels r) v ms)).
    { intros name v ms N Hv Hm. unfold MetricToBytes. rewrite metric_bytes_served. split; [apply served_ends; auto|apply served_no_newline; auto]. }
    assert (Ne : forall s, ends_digit s -> s <> []) by (intros s (p & d & -> & _) E; destruct p; discriminate).
    destruct r as [counters nanos ls|name value nanos ls]; cbn [report_labels report_text] in *.
    - destruct K as (_ & _ & Fn & Hn). pose proof (millis_int64 _ Hn) as Hm. unfold SnapshotToPrometheus.
      pose proof (fold_put_in (fun c => fst c ++ LabelsToBytes gs ls) counters []) as Hin.
      set (set0 := fold_left (fun s (c : bytes * Z) => map_put (fst c ++ LabelsToBytes gs ls) c s) counters []) in *.
      set (txt := fun c : bytes * Z => MetricToBytes gs (fst c) ls (wrap64 (snd c)) (timeToMillis nanos)).
      assert (Q : forall keys, exists txts, Forall (fun t => ends_digit t /\ ~ In nl t) txts /\
        concat (map (fun k => match map_get k set0 with Some c => txt c ++ [nl] | None => [] end) keys) = concat (map (fun l => l ++ [nl]) txts)).
      { induction keys as [|k keys (txts & F & E)]; [exists []; split; [constructor|reflexivity]|]. cbn [map concat].
        destruct (map_get k set0) as [c|] eqn:G; [|exists txts; auto]. exists (txt c :: txts). split; [|cbn [map concat]; congruence].
        constructor; [|exact F]. destruct (get_in _ _ _ G) as (k' & Hk). destruct (Hin _ _ Hk) as [Hc|[]].
        rewrite Forall_forall in Fn. apply Go; [apply (Fn c Hc)|apply wrap64_range|exact Hm]. }
      destruct (Q (gs bytes bltb (map fst set0))) as (txts & F & E). unfold txt in E. intros P. 
      assert (P' : ParseMetrics gs (concat (map (fun l => l ++ [nl]) txts)) = PsPanic) by (rewrite <- E; exact P). revert P'.
      apply (digits_go _ txts); [apply lines_message|].
      + eapply Forall_impl; [|exact F]. cbn. intros t [_ H]. exact H.
      + eapply Forall_impl; [|exact F]. cbn. intros t [H _]. apply Ne; auto.
      + eapply Forall_impl; [|exact F]. cbn. intros t [H _]. exact H.
    - destruct K as ((_ & _ & _ & Nn) & Hv & Hn). unfold CounterToPrometheus.
      destruct (Go name value (timeToMillis nanos) Nn Hv (millis_int64 _ Hn)) as [A B]. eapply digits_go; [apply one_line; auto|].
      constructor; [exact A|constructor].
  Qed.

  (** So the monitor survives any reports without newlines, and what it takes in it takes in whole. *)
  Lemma reports_survive rs : Forall (fun r => report_frame_ok r /\ Forall (fun l : bytes * bytes => ~ In nl (snd l)) (report_labels r)) rs ->
    forall set, exists set' outs, mon_run gs set (map (fun r => EMsg (report_text gs r) (fun l => l)) rs) = Some (set', outs).
  Proof.
    induction 1 as [|r rs [K V] F IH]; intros set; [exists set, []; reflexivity|]. cbn [map mon_run mon_step].
    destruct (ParseMetrics gs (report_text gs r)) as [| |new] eqn:E.
    - destruct (IH set) as (s' & o & ->). eauto.
    - exfalso. apply (report_goes r K V E).
    - destruct (IH (fold_left (Update gs) (map snd new) set)) as (s' & o & H). exists s', o. rewrite H. reflexivity.
  Qed.
End Sorted.
