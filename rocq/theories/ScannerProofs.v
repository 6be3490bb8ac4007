(** What the scanner returns, whatever the reads. *)
From Verif Require Import Base LinesSpec BatchSpec Batch Prom PromParse Timestamps Splitter Listener Scanner.
Local Open Scope Z_scope.

(** A line with its newline. *)
Definition full (l : bytes) : Prop := exists p, l = p ++ [nl] /\ ~ In nl p /\ Z.of_nat (length l) <= 65536.
Definition rest_ok (s : scanner) (last : list bytes) : Prop :=
  last = [] \/ exists t, last = [t] /\ t <> [] /\ ~ In nl t /\ Z.of_nat (length t) <= 65536 /\ sc_data s = [] /\ sc_err s <> None.

Record sinv (body : bytes) (s : scanner) : Prop := {
  si_body : body = concat (sc_toks s) ++ sc_data s ++ sc_body s;
  si_start : 0 <= sc_start s;
  si_cap : sc_end s <= sc_cap s <= 65536;
  si_toks : exists ts last, sc_toks s = ts ++ last /\ Forall full ts /\ rest_ok s last;
  si_eof : sc_err s = Some SEOF -> sc_body s = [];
  si_long : sc_err s = Some STooLong -> sc_done s = true /\ Z.of_nat (length (sc_data s)) = 65536 /\ ~ In nl (sc_data s);
  si_done : sc_done s = true -> sc_err s <> None /\ (sc_err s = Some STooLong \/ sc_data s = []);
  si_empty : (0 < sc_empty s)%nat -> sc_err s = None /\ ~ In nl (sc_data s);
  si_noerr : sc_err s = None -> exists ts, sc_toks s = ts /\ Forall full ts }.

Lemma sinv_init body sched : sinv body (newScanner body sched).
Proof.
  constructor; unfold newScanner, sc_end; cbn; try lia; try discriminate; auto.
  - exists [], []. split; auto. split; [constructor|left; reflexivity].
  - eauto.
Qed.

Lemma no_nl_index d : index_of (Ascii.eqb nl) d = None <-> ~ In nl d.
Proof.
  rewrite not_in_forall. split; [apply index_of_None|apply index_of_none].
Qed.

Lemma sc_read_inv body s s1 : sinv body s -> sc_err s = None -> sc_done s = false ->
  sc_read s = Some s1 -> ~ In nl (sc_data s) -> sinv body s1.
Proof.
  intros V E D R NN. destruct V as [Vb Vs Vc Vt Vf Vl Vd Ve Vn]. destruct s as [cap start data err bd sched empty toks done]. cbn in *. subst err done.
  unfold sc_read in R. cbn [sc_sched sc_cap sc_body sc_data sc_start sc_toks sc_done sc_empty] in R.
  destruct sched as [|[k er] sched]; [discriminate|].
  set (n := Nat.min k (Z.to_nat (cap - sc_end (mkSc cap start data None bd ((k, er) :: sched) empty toks false)))) in *.
  unfold sc_end in *. cbn [sc_start sc_data sc_cap] in *.
  assert (Ln : Z.of_nat (length (firstn n bd)) <= cap - (start + Z.of_nat (length data))).
  { rewrite firstn_length. subst n. lia. }
  destruct Vt as (ts & last & T1 & T2 & T3).
  assert (TT : exists ts, toks = ts /\ Forall full ts) by (apply Vn; reflexivity). destruct TT as (ts' & <- & Ft). clear ts last T1 T2 T3 Vn.
  assert (G : forall e em, (e = Some SEOF -> skipn n bd = []) -> e <> Some STooLong -> ((0 < em)%nat -> e = None /\ firstn n bd = []) ->
    sinv body (mkSc cap start (data ++ firstn n bd) e (skipn n bd) sched em toks false)).
  { intros e em He1 He2 He3. constructor; unfold sc_end; cbn [sc_start sc_data sc_cap sc_toks sc_body sc_err sc_done sc_empty].
    - rewrite Vb, <- (firstn_skipn n bd) at 1. rewrite <- !app_assoc. reflexivity.
    - exact Vs.
    - rewrite app_length. lia.
    - exists toks, []. rewrite app_nil_r. split; auto. split; auto. left; reflexivity.
    - exact He1.
    - intros X. contradiction.
    - discriminate.
    - intros X. destruct (He3 X) as [-> X2]. split; auto. rewrite X2, app_nil_r. exact NN.
    - intros _. eauto. }
  destruct er; cbv beta iota zeta in R.
  - destruct (firstn n bd) as [|x g] eqn:Eg.
    + destruct (Nat.ltb maxEmptyReads (S empty)); injection R as <-; apply G; try discriminate; auto; intros; lia.
    + injection R as <-. apply G; try discriminate; lia.
  - destruct (skipn n bd) as [|y r] eqn:Er.
    + injection R as <-. apply G; try discriminate; auto; lia.
    + destruct (firstn n bd) as [|x g] eqn:Eg.
      * destruct (Nat.ltb maxEmptyReads (S empty)); injection R as <-; apply G; try discriminate; auto; intros; lia.
      * injection R as <-. apply G; try discriminate; lia.
  - injection R as <-. apply G; try discriminate; lia.
  - injection R as <-. apply G; try discriminate; lia.
Qed.

Lemma firstn_line a (b : bytes) : firstn (S (length a)) (a ++ nl :: b) = a ++ [nl].
Proof. induction a as [|x a IH]; [reflexivity|]. change (x :: firstn (S (length a)) (a ++ nl :: b) = x :: a ++ [nl]). f_equal. exact IH. Qed.
Lemma skipn_line a (b : bytes) : skipn (S (length a)) (a ++ nl :: b) = b.
Proof. induction a as [|x a IH]; [reflexivity|]. exact IH. Qed.

Lemma sc_step_inv body s s1 : sinv body s -> sc_step s = Some s1 -> sinv body s1.
Proof.
  intros V Hs. unfold sc_step in Hs. destruct (sc_done s) eqn:Ed; [discriminate|].
  destruct (Nat.ltb_spec 0 (sc_empty s)) as [Le|Ge].
  { destruct (si_empty _ _ V Le) as [E1 E2]. apply (sc_read_inv body s); auto. }
  pose proof V as [Vb Vs Vc Vt Vf Vl Vd Ve Vn].
  assert (He : sc_empty s = 0%nat) by lia.
  (* no token *)
  assert (NT : ~ In nl (sc_data s) -> (sc_err s <> None -> sc_data s = []) ->
    (if match sc_err s with Some _ => true | None => false end
     then Some (mkSc (sc_cap s) 0 [] (sc_err s) (sc_body s) (sc_sched s) (sc_empty s) (sc_toks s) true)
     else match sc_prepare s with
          | None => Some (mkSc (sc_cap s) (sc_start s) (sc_data s) (Some STooLong) (sc_body s) (sc_sched s) (sc_empty s) (sc_toks s) true)
          | Some s => sc_read s
          end) = Some s1 -> sinv body s1).
  { clear Hs. intros NN ND Hs. destruct (sc_err s) as [e|] eqn:Ee.
    - assert (D0 : sc_data s = []) by (apply ND; discriminate). injection Hs as <-.
      constructor; unfold sc_end in *; cbn [sc_start sc_data sc_cap sc_toks sc_body sc_err sc_done sc_empty]; rewrite ?D0 in *; cbn [length] in *; try lia; auto.
      all: try (destruct Vt as (ts & last & T1 & T2 & T3); exists ts, last; split; [exact T1|]; split; [exact T2|];
        destruct T3 as [T3|(t & T3 & T4 & T5 & T6 & T7 & T8)]; [left; auto|right]; exists t; cbn; rewrite <- Ee; repeat split; auto).
      all: try (intros X; destruct (Vl X) as [X1 _]; congruence).
      all: try (rewrite He; lia).
      all: try (intros X; discriminate).
      all: try (intros _; split; [discriminate|right; reflexivity]).
    - destruct (Vn eq_refl) as (ts & <- & Ft).
      unfold sc_prepare in Hs.
      set (start := if ((0 <? sc_start s) && ((sc_end s =? sc_cap s) || (sc_cap s / 2 <? sc_start s)))%bool then 0 else sc_start s) in *.
      assert (Hst : 0 <= start <= sc_start s) by (subst start; destruct (_ && _)%bool; lia).
      assert (Hfull : sc_end s = sc_cap s -> start = 0).
      { intros X. subst start. destruct (Z.ltb_spec 0 (sc_start s)); cbn [andb]; [|lia]. rewrite X, Z.eqb_refl. reflexivity. }
      cbv zeta in Hs. unfold sc_end in *. cbn [sc_start sc_data sc_cap sc_toks sc_body sc_err sc_done sc_empty sc_sched] in *.
      rewrite Ed, Ee in Hs.
      assert (G : forall cap st, 0 <= st -> st + Z.of_nat (length (sc_data s)) <= cap <= 65536 ->
        sinv body (mkSc cap st (sc_data s) (sc_err s) (sc_body s) (sc_sched s) (sc_empty s) (sc_toks s) false)).
      { intros cap st B1 B2. constructor; unfold sc_end; cbn [sc_start sc_data sc_cap sc_toks sc_body sc_err sc_done sc_empty]; auto; try (rewrite Ee; discriminate); try discriminate.
        all: try (exists (sc_toks s), []; rewrite app_nil_r; split; auto; split; auto; left; reflexivity).
        all: try (rewrite He; lia).
        all: try (intros _; eauto). }
      rewrite Ee in G.
      destruct (Z.eqb_spec (start + Z.of_nat (length (sc_data s))) (sc_cap s)) as [Ef|Nf].
      + assert (Hfull' : start = 0) by (apply Hfull; lia).
        destruct (Z.leb_spec maxTokenSize (sc_cap s)) as [Lm|Lm]; unfold maxTokenSize in *.
        * injection Hs as <-. constructor; unfold sc_end; cbn [sc_start sc_data sc_cap sc_toks sc_body sc_err sc_done sc_empty]; auto; try discriminate.
          all: try (exists (sc_toks s), []; rewrite app_nil_r; split; auto; split; auto; left; reflexivity).
          all: try (rewrite He; lia).
          all: try (intros _; split; [discriminate|left; reflexivity]).
          all: try (intros _; split; auto; split; auto; lia).
        * eapply sc_read_inv; [| | |exact Hs|exact NN]; [|cbn; reflexivity..].
          apply G; [lia|]. unfold startBufSize. destruct (Z.eqb_spec (sc_cap s * 2) 0); destruct (Z.ltb_spec 65536 (sc_cap s * 2)); cbn; try lia.
      + eapply sc_read_inv; [| | |exact Hs|exact NN]; [|cbn; reflexivity..]. apply G; lia. }
  assert (TK : forall d e, sc_data s = d -> sc_err s = e -> (d <> [] \/ e <> None) ->
     match scanLines d (match e with Some _ => true | None => false end) with
    | (adv, Some tok) =>
        Some (mkSc (sc_cap s) (sc_start s + Z.of_nat adv) (skipn adv d) e (sc_body s) (sc_sched s)
                   (sc_empty s) (sc_toks s ++ [tok]) false)
    | (_, None) =>
        if match e with Some _ => true | None => false end
        then Some (mkSc (sc_cap s) 0 [] (sc_err s) (sc_body s) (sc_sched s) (sc_empty s) (sc_toks s) true)
        else match sc_prepare s with
             | None => Some (mkSc (sc_cap s) (sc_start s) (sc_data s) (Some STooLong) (sc_body s) (sc_sched s) (sc_empty s) (sc_toks s) true)
             | Some s => sc_read s
             end
    end = Some s1 -> sinv body s1).
  { clear Hs. intros d e Dd De Or Hs. unfold scanLines in Hs.
    destruct (match e with Some _ => true | None => false end && Nat.eqb (length d) 0)%bool eqn:Eb.
    { apply andb_true_iff in Eb. destruct Eb as [Eb1 Eb2]. apply Nat.eqb_eq in Eb2. apply length_zero_iff_nil in Eb2. rewrite <- Dd in Eb2.
      apply NT; [rewrite Eb2; intros []|intros _; exact Eb2|]. rewrite De in Hs |- *. exact Hs. }
    destruct (index_of (Ascii.eqb nl) d) as [i|] eqn:Ei.
    - destruct (index_of_Some _ _ _ Ei) as (a & c & b & Ea & La & Fa & Pc). apply Ascii.eqb_eq in Pc. subst c i.
      rewrite Ea, firstn_line, skipn_line in Hs. injection Hs as <-. rewrite Ea in Dd. clear d Ea Ei Eb Or.
      apply not_in_forall in Fa.
      assert (Ns : exists ts, sc_toks s = ts /\ Forall full ts).
      { destruct Vt as (ts & last & T1 & T2 & [T3|(t & T3 & T4 & T5 & T6 & T7 & T8)]).
        - subst last. rewrite app_nil_r in T1. eauto.
        - rewrite T7 in Dd. destruct a; discriminate. }
      destruct Ns as (ts & <- & Ft). assert (Ll : Z.of_nat (length (a ++ [nl])) <= 65536).
      { unfold sc_end in Vc. rewrite Dd, app_length in Vc. rewrite app_length. cbn [length] in *. lia. }
      assert (Ft' : Forall full (sc_toks s ++ [a ++ [nl]])).
      { apply Forall_app. split; auto. constructor; auto. exists a. auto. }
      constructor; unfold sc_end in *; cbn [sc_start sc_data sc_cap sc_toks sc_body sc_err sc_done sc_empty]; try rewrite Dd in *.
      + rewrite Vb at 1. rewrite concat_app. cbn [concat]. rewrite app_nil_r, <- !app_assoc. reflexivity.
      + lia.
      + rewrite app_length in Vc. cbn [length] in Vc. lia.
      + exists (sc_toks s ++ [a ++ [nl]]), []. rewrite app_nil_r. split; auto. split; auto. left; reflexivity.
      + rewrite <- De. exact Vf.
      + rewrite <- De. intros X. destruct (Vl X). congruence.
      + discriminate.
      + rewrite He. lia.
      + intros _. eauto.
    - apply no_nl_index in Ei. destruct e as [e|].
      + injection Hs as <-. cbn [andb] in Eb. apply Nat.eqb_neq in Eb.
        assert (Nd : d <> []) by (intros ->; apply Eb; reflexivity).
        rewrite skipn_all. constructor; unfold sc_end in *; cbn [sc_start sc_data sc_cap sc_toks sc_body sc_err sc_done sc_empty]; try rewrite Dd in *; try rewrite De in *; auto; try discriminate.
        * rewrite Vb at 1. rewrite concat_app. cbn [concat]. rewrite app_nil_r, <- !app_assoc. reflexivity.
        * lia.
        * cbn [length]. lia.
        * destruct Vt as (ts & last & T1 & T2 & [T3|(t & T3 & T4 & T5 & T6 & T7 & T8)]); [|congruence].
          subst last. rewrite app_nil_r in T1. exists ts, [d]. rewrite T1. split; auto. split; auto. right. exists d. cbn.
          repeat split; auto; [lia|discriminate].
        * intros X. destruct (Vl X) as [X1 _]. congruence.
        * rewrite He. lia.
      + apply NT; [rewrite Dd; auto|rewrite De; tauto|]. rewrite De. exact Hs. }
  destruct (sc_data s) as [|x d] eqn:Dd.
  - destruct (sc_err s) as [e|] eqn:De.
    + apply (TK [] (Some e)); auto. right; discriminate.
    + apply NT; [intros []|auto|]. exact Hs.
  - apply (TK (x :: d) (sc_err s)); auto. left; discriminate.
Qed.

Lemma sc_run_inv body sched s : sc_run (newScanner body sched) s -> sinv body s.
Proof.
  intros R. remember (newScanner body sched) as s0. assert (V : sinv body s0) by (subst; apply sinv_init). clear Heqs0.
  induction R as [s|s s1 s2 Hs R IH]; auto. apply IH. eapply sc_step_inv; eauto.
Qed.

Lemma full_ended l : full l -> nl_ended l.
Proof. intros (p & -> & _). right. eauto. Qed.
Lemma full_lines l : full l -> lines_of l = [l].
Proof. intros (p & -> & N & _). rewrite (lines_of_nl_app p []) by exact N. reflexivity. Qed.
Lemma lines_full ts : Forall full ts -> lines_of (concat ts) = ts.
Proof.
  intros F. rewrite lines_of_concat_ended by (eapply Forall_impl; [|exact F]; apply full_ended).
  induction F as [|l ts H F IH]; [reflexivity|]. cbn [flat_map]. rewrite full_lines, IH by exact H. reflexivity.
Qed.
Lemma full_concat_ended ts : Forall full ts -> nl_ended (concat ts).
Proof.
  induction 1 as [|l ts H F IH]; [left; reflexivity|]. cbn [concat]. destruct H as (p & -> & _).
  destruct IH as [->|(q & ->)]; [rewrite app_nil_r; right; eauto|]. right. exists ((p ++ [nl]) ++ q). rewrite <- !app_assoc. reflexivity.
Qed.

Lemma byte_last p x c : byte_at (p ++ [x]) (length (p ++ [x]) - 1) c = Ascii.eqb x c.
Proof.
  rewrite app_length. cbn [length]. replace (length p + 1 - 1)%nat with (length p) by lia. unfold byte_at.
  rewrite nth_error_app2, Nat.sub_diag by lia. reflexivity.
Qed.
Lemma full_fits eg l : full l -> scan_fits eg l = true.
Proof. intros (p & -> & _ & L). unfold scan_fits. rewrite byte_last, Ascii.eqb_refl. cbn [orb]. apply Z.leb_le. exact L. Qed.
Lemma scan_full eg ts ls : Forall full ts -> scan_tokens eg (ts ++ ls) = (ts ++ fst (scan_tokens eg ls), snd (scan_tokens eg ls)).
Proof.
  induction 1 as [|l ts H F IH]; cbn [app]; [destruct (scan_tokens eg ls); reflexivity|].
  cbn [scan_tokens]. rewrite (full_fits eg l H), IH. reflexivity.
Qed.

Lemma open_fits_eager t : Z.of_nat (length t) <= 65536 -> scan_fits true t = true.
Proof. intros L. unfold scan_fits. rewrite orb_true_r. apply Z.leb_le. exact L. Qed.

Lemma long_stops p r : ~ In nl p -> 65536 <= Z.of_nat (length p) -> scan_tokens false (lines_of (p ++ r)) = ([], true).
Proof.
  intros N L. assert (Np : p <> []) by (intros ->; cbn in L; lia).
  destruct (index_of (Ascii.eqb nl) r) as [i|] eqn:E.
  - destruct (index_of_Some _ _ _ E) as (a & c & b & -> & _ & Fa & Pc). apply Ascii.eqb_eq in Pc. subst c.
    apply not_in_forall in Fa. rewrite app_assoc, lines_of_nl_app by (rewrite in_app_iff; tauto). cbn [scan_tokens].
    unfold scan_fits. rewrite byte_last, Ascii.eqb_refl. cbn [orb].
    rewrite (proj2 (Z.leb_gt _ _)); [reflexivity|]. rewrite !app_length. cbn [length]. lia.
  - apply no_nl_index in E. rewrite lines_of_no_nl; [|rewrite in_app_iff; tauto|destruct p; [congruence|discriminate]].
    cbn [scan_tokens]. set (l := p ++ r). assert (Nl : ~ In nl l) by (unfold l; rewrite in_app_iff; tauto).
    assert (Ll : 65536 <= Z.of_nat (length l)) by (unfold l; rewrite app_length; lia).
    assert (NE : l <> []) by (intros X; rewrite X in Ll; cbn in Ll; lia).
    destruct (exists_last NE) as (q & x & Eq). rewrite Eq in *. unfold scan_fits. rewrite byte_last.
    destruct (Ascii.eqb_spec x nl) as [->|]; [exfalso; apply Nl; rewrite in_app_iff; right; left; reflexivity|]. cbn [orb].
    rewrite (proj2 (Z.ltb_ge _ _)); [reflexivity|exact Ll].
Qed.

(** When Scan has returned false. *)
Lemma sc_done_result body sched s : sc_run (newScanner body sched) s -> sc_done s = true ->
  (sc_err s = Some STooLong /\ scan_tokens false (lines_of body) = (sc_toks s, true)) \/
  (sc_err s <> Some STooLong /\ delivered body s = concat (sc_toks s) /\ lines_of (delivered body s) = sc_toks s /\
   scan_tokens true (lines_of (delivered body s)) = (sc_toks s, false) /\ (sc_failed s = false -> delivered body s = body)).
Proof.
  intros R D. pose proof (sc_run_inv _ _ _ R) as [Vb Vs Vc Vt Vf Vl Vd Ve Vn].
  destruct (Vd D) as [Ne Dt]. destruct Vt as (ts & last & T1 & T2 & T3).
  destruct (sc_err s) as [e|] eqn:Ee; [|congruence].
  destruct (match e with STooLong => true | _ => false end) eqn:Eq.
  - destruct e; try discriminate. left. split; auto. destruct (Vl eq_refl) as (_ & L & N).
    destruct T3 as [T3|(t & _ & _ & _ & _ & T7 & _)]; [|rewrite T7 in L; cbn in L; lia].
    subst last. rewrite app_nil_r in T1. rewrite Vb, T1, lines_of_app by (apply full_concat_ended; exact T2).
    rewrite lines_full, scan_full by exact T2. rewrite long_stops by (auto; lia). cbn [fst snd]. rewrite app_nil_r. reflexivity.
  - right. assert (NL : Some e <> Some STooLong) by (intros X; injection X as ->; discriminate). split; [exact NL|].
    assert (D0 : sc_data s = []) by (destruct Dt; [contradiction|assumption]).
    assert (De : delivered body s = concat (sc_toks s)).
    { unfold delivered. rewrite Vb at 1 2. rewrite D0. cbn [app]. rewrite app_length.
      replace (length (concat (sc_toks s)) + length (sc_body s) - length (sc_body s))%nat with (length (concat (sc_toks s)) + 0)%nat by lia.
      rewrite firstn_app_2. cbn [firstn]. apply app_nil_r. }
    assert (Li : lines_of (delivered body s) = sc_toks s).
    { rewrite De, T1. destruct T3 as [->|(t & -> & T4 & T5 & _)]; [rewrite app_nil_r; apply lines_full; exact T2|].
      rewrite concat_app. cbn [concat]. rewrite app_nil_r, lines_of_app by (apply full_concat_ended; exact T2).
      rewrite lines_full, lines_of_no_nl by auto. reflexivity. }
    split; [exact De|]. split; [exact Li|]. split.
    + rewrite Li, T1. rewrite scan_full by exact T2. destruct T3 as [->|(t & -> & _ & _ & T6 & _)]; [reflexivity|].
      cbn [scan_tokens]. rewrite open_fits_eager by exact T6. reflexivity.
    + intros F. unfold sc_failed in F. rewrite Ee in F. destruct e; try discriminate.
      rewrite De. rewrite Vb, D0, (Vf eq_refl), !app_nil_r. reflexivity.
Qed.

(** The scanner never gets stuck except for want of data, and never runs for ever. *)
Lemma sc_read_some s : sc_sched s <> [] -> sc_read s <> None.
Proof.
  unfold sc_read. destruct (sc_sched s) as [|[k e] r]; [congruence|]. intros _.
  destruct (match (match e with EEOF => _ | _ => _ end) with EEOF => _ | _ => _ end). discriminate.
Qed.
Lemma sc_prepare_sched s s1 : sc_prepare s = Some s1 -> sc_sched s1 = sc_sched s /\ sc_data s1 = sc_data s /\ sc_body s1 = sc_body s /\ sc_done s1 = sc_done s.
Proof.
  unfold sc_prepare. cbv zeta. destruct (_ =? _); [destruct (_ <=? _); [discriminate|]|]; intros H; injection H as <-; auto.
Qed.
Lemma sc_stuck s : sc_step s = None -> sc_done s = true \/ sc_sched s = [].
Proof.
  unfold sc_step. destruct (sc_done s); auto. intros H. right.
  assert (Rd : forall s', sc_sched s' = sc_sched s -> sc_read s' = None -> sc_sched s = []).
  { intros s' E X. destruct (sc_sched s) eqn:Es; auto. exfalso. apply (sc_read_some s'); auto. rewrite E. discriminate. }
  destruct (Nat.ltb 0 (sc_empty s)); [eauto|].
  destruct (match sc_data s with [] => _ | _ => _ end) as [adv [tok|]]; [discriminate|].
  destruct (match sc_err s with Some _ => true | None => false end); [discriminate|].
  destruct (sc_prepare s) as [s1|] eqn:Ep; [|discriminate]. destruct (sc_prepare_sched _ _ Ep) as (E & _). eauto.
Qed.

Definition sc_measure (s : scanner) : nat :=
  (length (sc_sched s) + length (sc_data s) + length (sc_body s) + if sc_done s then 0 else 1)%nat.
Lemma sc_read_measure s s1 : sc_read s = Some s1 -> (sc_measure s1 < sc_measure s)%nat.
Proof.
  unfold sc_read, sc_measure. destruct (sc_sched s) as [|[k e] r]; [discriminate|].
  destruct (match (match e with EEOF => _ | _ => _ end) with EEOF => _ | _ => _ end). intros H. injection H as <-. cbn [sc_sched sc_data sc_body sc_done].
  rewrite app_length, firstn_length, skipn_length. cbn [length]. lia.
Qed.
Lemma scanLines_adv d e a t : scanLines d e = (a, Some t) -> (0 < a <= length d)%nat.
Proof.
  unfold scanLines. destruct (e && Nat.eqb (length d) 0)%bool eqn:E; [discriminate|].
  destruct (index_of (Ascii.eqb nl) d) as [i|] eqn:Ei.
  - intros H. injection H as <- _. destruct (index_of_Some _ _ _ Ei) as (x & c & y & -> & <- & _). rewrite app_length. cbn [length]. lia.
  - destruct e; [|discriminate]. intros H. injection H as <- _. cbn [andb] in E. apply Nat.eqb_neq in E. lia.
Qed.
Lemma sc_step_measure s s1 : sc_step s = Some s1 -> (sc_measure s1 < sc_measure s)%nat.
Proof.
  unfold sc_step. destruct (sc_done s) eqn:Ed; [discriminate|].
  destruct (Nat.ltb 0 (sc_empty s)); [apply sc_read_measure|].
  destruct (match sc_data s with [] => _ | _ => _ end) as [adv [tok|]] eqn:Et.
  - intros H. injection H as <-. unfold sc_measure. cbn [sc_sched sc_data sc_body sc_done]. rewrite skipn_length, Ed.
    assert (0 < adv <= length (sc_data s))%nat.
    { destruct (sc_data s) eqn:Es; [destruct (sc_err s); [|discriminate]|]; eapply scanLines_adv; exact Et. }
    lia.
  - destruct (match sc_err s with Some _ => true | None => false end).
    + intros H. injection H as <-. unfold sc_measure. cbn [sc_sched sc_data sc_body sc_done length]. rewrite Ed. lia.
    + destruct (sc_prepare s) as [s2|] eqn:Ep.
      * destruct (sc_prepare_sched _ _ Ep) as (E1 & E2 & E3 & E4). intros H. apply sc_read_measure in H.
        unfold sc_measure in *. rewrite E1, E2, E3, E4 in H. exact H.
      * intros H. injection H as <-. unfold sc_measure. cbn [sc_sched sc_data sc_body sc_done]. rewrite Ed. lia.
Qed.
Lemma sc_finishes s : exists s1, sc_run s s1 /\ sc_step s1 = None.
Proof.
  remember (sc_measure s) as n. revert s Heqn. induction n as [n IH] using lt_wf_ind. intros s ->.
  destruct (sc_step s) as [s2|] eqn:E; [|exists s; split; [constructor|exact E]].
  destruct (IH _ (sc_step_measure _ _ E) s2 eq_refl) as (s1 & R & X). exists s1. split; [econstructor; eauto|exact X].
Qed.

(* ------------------------------------------------------------------ *)
(** * How a scan ends *)

(** A Read call that reported an error other than the end. *)
Definition bad_read (p : nat * rerr) : Prop := snd p = EOther \/ snd p = ETimeout.

(** [used]: the Read calls made so far.  None but the last reported an error, and the scanner knows whether the last one did. *)
Record rinv (sched : list (nat * rerr)) (s : scanner) : Prop := {
  ri_used : exists used, sched = used ++ sc_sched s /\
    (sc_err s <> Some SRead -> Forall (fun p => ~ bad_read p) used) /\
    (sc_err s = Some SRead -> exists pre p, used = pre ++ [p] /\ bad_read p /\ Forall (fun p => ~ bad_read p) pre);
  ri_empty : (0 < sc_empty s)%nat -> sc_err s = None }.

Lemma sc_read_rinv sched s s1 : rinv sched s -> sc_err s = None -> sc_read s = Some s1 -> rinv sched s1.
Proof.
  intros [(used & U & N & _) _] E R. unfold sc_read in R. destruct (sc_sched s) as [|[k er] r] eqn:Es; [discriminate|].
  assert (Nu : Forall (fun p => ~ bad_read p) used) by (apply N; rewrite E; discriminate).
  assert (G : forall st d e b em t dn, ((0 < em)%nat -> e = None) -> (e = Some SRead <-> bad_read (k, er)) ->
    rinv sched (mkSc (sc_cap s) st d e b r em t dn)).
  { intros st d e b em t dn He Hb. constructor; cbn [sc_err sc_sched sc_empty]; [|exact He].
    exists (used ++ [(k, er)]). split; [rewrite U, <- app_assoc; reflexivity|]. split.
    - intros X. apply Forall_app. split; [exact Nu|]. constructor; [|constructor]. intros Y. apply X, Hb, Y.
    - intros X. exists used, (k, er). split; [reflexivity|]. split; [apply Hb; exact X|exact Nu]. }
  assert (B0 : forall x, x <> Some SRead -> er <> EOther -> er <> ETimeout -> x = Some SRead <-> bad_read (k, er)).
  { intros x H1 H2 H3. split; [intros; contradiction|intros [X|X]; cbn in X; contradiction]. }
  destruct er.
  - destruct (firstn _ (sc_body s)); [destruct (Nat.ltb _ _)|]; injection R as <-; apply G; try (intros; lia); try reflexivity; apply B0; discriminate.
  - destruct (skipn _ (sc_body s)).
    + injection R as <-. apply G; [intros; lia|apply B0; discriminate].
    + destruct (firstn _ (sc_body s)); [destruct (Nat.ltb _ _)|]; injection R as <-; apply G; try (intros; lia); try reflexivity; apply B0; discriminate.
  - injection R as <-. apply G; [intros; lia|]. split; [intros _; right; reflexivity|reflexivity].
  - injection R as <-. apply G; [intros; lia|]. split; [intros _; left; reflexivity|reflexivity].
Qed.

Lemma rinv_same sched s cap st d t dn : rinv sched s -> rinv sched (mkSc cap st d (sc_err s) (sc_body s) (sc_sched s) (sc_empty s) t dn).
Proof. intros [U E]. constructor; cbn [sc_err sc_sched sc_empty]; auto. Qed.

Lemma sc_step_rinv sched s s1 : rinv sched s -> sc_step s = Some s1 -> rinv sched s1.
Proof.
  intros V Hs. unfold sc_step in Hs. destruct (sc_done s); [discriminate|].
  destruct (Nat.ltb_spec 0 (sc_empty s)) as [Le|Ge].
  { apply (sc_read_rinv sched s s1); auto. apply (ri_empty _ _ V Le). }
  cbv zeta in Hs. destruct (match sc_data s, sc_err s with [], None => _ | d, _ => _ end) as [adv [tok|]].
  { injection Hs as <-. apply rinv_same. exact V. }
  destruct (sc_err s) as [e|] eqn:Ee.
  { injection Hs as <-. rewrite <- Ee. apply rinv_same. exact V. }
  destruct (sc_prepare s) as [s2|] eqn:Ep.
  - apply (sc_read_rinv sched s2 s1); auto.
    + unfold sc_prepare in Ep. cbv zeta in Ep. destruct (Z.eqb _ _); [destruct (Z.leb _ _); [discriminate|]|]; injection Ep as <-; cbn [sc_err sc_body sc_sched sc_empty sc_toks sc_done]; apply rinv_same; exact V.
    + unfold sc_prepare in Ep. cbv zeta in Ep. destruct (Z.eqb _ _); [destruct (Z.leb _ _); [discriminate|]|]; injection Ep as <-; exact Ee.
  - injection Hs as <-. destruct V as [(used & U & N & _) E]. constructor; cbn [sc_err sc_sched sc_empty].
    + exists used. split; [exact U|]. split; [intros _; apply N; rewrite Ee; discriminate|discriminate].
    + lia.
Qed.

Lemma sc_run_rinv body sched s : sc_run (newScanner body sched) s -> rinv sched s.
Proof.
  intros R. assert (V : rinv sched (newScanner body sched)).
  { constructor; unfold newScanner; cbn [sc_err sc_sched sc_empty]; [|lia]. exists []. split; [reflexivity|]. split; [constructor|discriminate]. }
  remember (newScanner body sched) as s0. clear Heqs0. induction R as [s|s s1 s2 Hs R IH]; auto. apply IH. eapply sc_step_rinv; eauto.
Qed.

Lemma sc_run_trans a b c : sc_run a b -> sc_run b c -> sc_run a c.
Proof. induction 1; auto. intros. econstructor; eauto. Qed.

(** One Read call, as far as empty reads are concerned. *)
Lemma sc_read_quiet s s1 : sc_read s = Some s1 -> sc_err s = None -> (sc_empty s <= 100)%nat ->
  length (sc_sched s) = S (length (sc_sched s1)) /\
  ((sc_err s1 = None /\ sc_body s1 = sc_body s /\ sc_empty s1 = S (sc_empty s) /\ (sc_empty s1 <= 100)%nat) \/
   (sc_err s1 = None /\ (length (sc_body s1) < length (sc_body s))%nat /\ sc_empty s1 = 0%nat) \/
   (sc_err s1 = Some SNoProgress /\ sc_body s1 = sc_body s /\ sc_empty s = 100%nat /\ sc_empty s1 = 0%nat) \/
   (sc_err s1 <> None /\ sc_err s1 <> Some SNoProgress /\ sc_empty s1 = 0%nat)).
Proof.
  intros R E L. unfold sc_read in R. destruct (sc_sched s) as [|[k er] r] eqn:Es; [discriminate|].
  set (n := Nat.min k (Z.to_nat (sc_cap s - sc_end s))) in *.
  assert (Hq : firstn n (sc_body s) = [] -> skipn n (sc_body s) = sc_body s).
  { intros X. rewrite <- (firstn_skipn n (sc_body s)) at 2. rewrite X. reflexivity. }
  assert (Hn : firstn n (sc_body s) <> [] -> (length (skipn n (sc_body s)) < length (sc_body s))%nat).
  { intros X. rewrite <- (firstn_skipn n (sc_body s)) at 2. rewrite app_length. destruct (firstn n (sc_body s)); [congruence|cbn; lia]. }
  assert (None' : forall st d t, match firstn n (sc_body s) with
       | [] => if Nat.ltb maxEmptyReads (S (sc_empty s)) then (Some SNoProgress, 0%nat) else (None, S (sc_empty s))
       | _ => (None, 0%nat) end = (st, d) -> t = mkSc (sc_cap s) (sc_start s) (sc_data s ++ firstn n (sc_body s)) st (skipn n (sc_body s)) r d (sc_toks s) (sc_done s) ->
     length ((k, er) :: r) = S (length (sc_sched t)) /\
    ((sc_err t = None /\ sc_body t = sc_body s /\ sc_empty t = S (sc_empty s) /\ (sc_empty t <= 100)%nat) \/
     (sc_err t = None /\ (length (sc_body t) < length (sc_body s))%nat /\ sc_empty t = 0%nat) \/
     (sc_err t = Some SNoProgress /\ sc_body t = sc_body s /\ sc_empty s = 100%nat /\ sc_empty t = 0%nat) \/
     (sc_err t <> None /\ sc_err t <> Some SNoProgress /\ sc_empty t = 0%nat))).
  { intros st d t H ->. cbn [sc_sched sc_err sc_body sc_empty]. split; [reflexivity|]. destruct (firstn n (sc_body s)) eqn:Eg.
    - unfold maxEmptyReads in H. destruct (Nat.ltb_spec 100 (S (sc_empty s))); inversion H; subst.
      + right; right; left. split; [reflexivity|]. split; [apply Hq; reflexivity|]. split; [lia|reflexivity].
      + left. split; [reflexivity|]. split; [apply Hq; reflexivity|]. split; [reflexivity|lia].
    - inversion H; subst. right; left. split; [reflexivity|]. split; [|reflexivity]. apply Hn. discriminate. }
  assert (Err : forall e t, e <> SNoProgress -> t = mkSc (sc_cap s) (sc_start s) (sc_data s ++ firstn n (sc_body s)) (Some e) (skipn n (sc_body s)) r 0 (sc_toks s) (sc_done s) ->
     length ((k, er) :: r) = S (length (sc_sched t)) /\
    ((sc_err t = None /\ sc_body t = sc_body s /\ sc_empty t = S (sc_empty s) /\ (sc_empty t <= 100)%nat) \/
     (sc_err t = None /\ (length (sc_body t) < length (sc_body s))%nat /\ sc_empty t = 0%nat) \/
     (sc_err t = Some SNoProgress /\ sc_body t = sc_body s /\ sc_empty s = 100%nat /\ sc_empty t = 0%nat) \/
     (sc_err t <> None /\ sc_err t <> Some SNoProgress /\ sc_empty t = 0%nat))).
  { intros e t Ne ->. cbn [sc_sched sc_err sc_body sc_empty]. split; [reflexivity|]. right; right; right. split; [discriminate|]. split; [congruence|reflexivity]. }
  cbv zeta in R. destruct er.
  - destruct (match firstn n (sc_body s) with [] => _ | _ => _ end) as [e em] eqn:Em in R. injection R as <-. eapply None'; [exact Em|reflexivity].
  - destruct (skipn n (sc_body s)) eqn:Er.
    + injection R as <-. apply (Err SEOF); [discriminate|reflexivity].
    + destruct (match firstn n (sc_body s) with [] => _ | _ => _ end) as [e em] eqn:Em in R. injection R as <-. eapply None'; [exact Em|reflexivity].
  - injection R as <-. apply (Err SRead); [discriminate|reflexivity].
  - injection R as <-. apply (Err SRead); [discriminate|reflexivity].
Qed.

(** A pass of the loop either reads or leaves the reader alone. *)
Lemma sc_step_reads s s1 : sc_step s = Some s1 -> ((0 < sc_empty s)%nat -> sc_err s = None) ->
  (exists s', sc_read s' = Some s1 /\ sc_err s' = None /\ sc_err s = None /\ sc_body s' = sc_body s /\ sc_sched s' = sc_sched s /\ sc_empty s' = sc_empty s) \/
  (sc_body s1 = sc_body s /\ sc_sched s1 = sc_sched s /\ sc_empty s1 = sc_empty s /\ (sc_err s1 = sc_err s \/ (sc_err s = None /\ sc_err s1 = Some STooLong))).
Proof.
  intros Hs He. unfold sc_step in Hs. destruct (sc_done s); [discriminate|].
  destruct (Nat.ltb_spec 0 (sc_empty s)) as [Le|Ge].
  { left. exists s. auto 10. }
  cbv zeta in Hs. destruct (match sc_data s, sc_err s with [], None => _ | d, _ => _ end) as [adv [tok|]].
  { injection Hs as <-. right. cbn. auto. }
  destruct (sc_err s) as [e|] eqn:Ee.
  { injection Hs as <-. right. cbn. auto. }
  destruct (sc_prepare s) as [s2|] eqn:Ep.
  - left. exists s2. split; [exact Hs|]. unfold sc_prepare in Ep. cbv zeta in Ep.
    destruct (Z.eqb _ _); [destruct (Z.leb _ _); [discriminate|]|]; injection Ep as <-; cbn; auto 10.
  - injection Hs as <-. right. cbn. auto 10.
Qed.

Record qinv (s0 s : scanner) : Prop := {
  qi_le : (sc_empty s <= 100)%nat;
  qi_none : (0 < sc_empty s)%nat -> sc_err s = None;
  qi_run : sc_err s <> Some SNoProgress -> exists s', sc_run s0 s' /\ sc_run s' s /\ sc_body s' = sc_body s /\ length (sc_sched s') = (length (sc_sched s) + sc_empty s)%nat;
  qi_stop : sc_err s = Some SNoProgress -> exists s', sc_run s0 s' /\ sc_run s' s /\ sc_body s' = sc_body s /\ length (sc_sched s') = (length (sc_sched s) + 101)%nat }.

Lemma qinv_step s0 s s1 : qinv s0 s -> sc_run s0 s -> sc_step s = Some s1 -> qinv s0 s1.
Proof.
  intros [Q1 Q2 Q3 Q4] R0 Hs. assert (R1 : sc_run s s1) by (econstructor; [exact Hs|constructor]).
  destruct (sc_step_reads s s1 Hs Q2) as [(s' & R & E' & E & B & S0 & Em)|(B & S0 & Em & Er)].
  - destruct (sc_read_quiet s' s1 R E') as [Ls C]; [lia|]. rewrite S0 in Ls. rewrite B, Em in C.
    assert (X : sc_err s <> Some SNoProgress) by (rewrite E; discriminate). destruct (Q3 X) as (a & Ra & Rb & Ba & La).
    assert (Rc : sc_run a s1) by (eapply sc_run_trans; eauto).
    destruct C as [(C1 & C2 & C3 & C4)|[(C1 & C2 & C3)|[(C1 & C2 & C3 & C4)|(C1 & C2 & C3)]]].
    + constructor; auto; [|rewrite C1; discriminate]. intros _. exists a. split; [exact Ra|]. split; [exact Rc|]. split; [congruence|lia].
    + constructor; [lia|lia| |rewrite C1; discriminate]. intros _. exists s1. split; [eapply sc_run_trans; eauto|]. split; [constructor|]. split; [reflexivity|lia].
    + constructor; [lia|lia|rewrite C1; intros Y; destruct Y; reflexivity|]. intros _. exists a. split; [exact Ra|]. split; [exact Rc|]. split; [congruence|lia].
    + constructor; [lia|lia| |intros Y; contradiction]. intros _. exists s1. split; [eapply sc_run_trans; eauto|]. split; [constructor|]. split; [reflexivity|lia].
  - constructor; rewrite ?Em.
    + exact Q1.
    + intros X. destruct Er as [Er|[Er1 Er2]]; [rewrite Er; auto|].
      unfold sc_step in Hs. destruct (sc_done s); [discriminate|]. destruct (Nat.ltb_spec 0 (sc_empty s)); [|lia].
      unfold sc_read in Hs. destruct (sc_sched s) as [|[k er] r]; [discriminate|].
      exfalso. pose proof (f_equal (fun o => match o with Some x => length (sc_sched x) | None => 0%nat end) Hs) as Y. cbv zeta in Y.
      destruct (match (match er with ENone => _ | EEOF => _ | ETimeout => _ | EOther => _ end) with ENone => _ | EEOF => _ | ETimeout => _ | EOther => _ end) as [e0 em0] in Y.
      cbn [sc_sched] in Y. rewrite S0 in Y. cbn in Y. lia.
    + intros X. assert (X0 : sc_err s <> Some SNoProgress) by (destruct Er as [Er|[Er1 Er2]]; congruence). destruct (Q3 X0) as (a & Ra & Rb & Ba & La).
      exists a. split; [exact Ra|]. split; [eapply sc_run_trans; eauto|]. split; congruence.
    + intros X. assert (X0 : sc_err s = Some SNoProgress) by (destruct Er as [Er|[Er1 Er2]]; congruence). destruct (Q4 X0) as (a & Ra & Rb & Ba & La).
      exists a. split; [exact Ra|]. split; [eapply sc_run_trans; eauto|]. split; congruence.
Qed.

Lemma sc_run_qinv body sched s : sc_run (newScanner body sched) s -> qinv (newScanner body sched) s.
Proof.
  set (s0 := newScanner body sched). assert (V : qinv s0 s0).
  { constructor; cbn; try lia; try discriminate. intros _. exists s0. repeat split; try constructor. cbn. lia. }
  assert (G : forall a b, sc_run a b -> sc_run s0 a -> qinv s0 a -> qinv s0 b).
  { induction 1 as [a|a a1 b Hs R IH]; auto. intros R0 Q. apply IH; [|eapply qinv_step; eauto].
    eapply sc_run_trans; [exact R0|]. econstructor; [exact Hs|constructor]. }
  intros R. apply (G s0 s R); [constructor|exact V].
Qed.

(** Reads without a byte in a row, while the scan goes on. *)
Lemma sc_quiet s0 a b : qinv s0 a -> sc_run s0 a -> sc_run a b -> sc_err b = None -> sc_body b = sc_body a ->
  (length (sc_sched a) - length (sc_sched b) + sc_empty a <= sc_empty b)%nat /\ sc_err a = None /\ (length (sc_sched b) <= length (sc_sched a))%nat.
Proof.
  intros Q R0 R E B. revert Q R0. induction R as [a|a a1 b Hs R IH]; intros Q R0.
  - split; [lia|]. auto.
  - assert (R1 : sc_run s0 a1) by (eapply sc_run_trans; [exact R0|]; econstructor; [exact Hs|constructor]).
    assert (Q1 : qinv s0 a1) by (eapply qinv_step; eauto).
    assert (Len : forall x y, sc_run x y -> forall z, qinv z x -> sc_run z x -> (length (sc_body y) <= length (sc_body x))%nat).
    { clear. induction 1 as [x|x x1 y Hs R IH]; intros z Q R0; [lia|].
      assert (R1 : sc_run z x1) by (eapply sc_run_trans; [exact R0|]; econstructor; [exact Hs|constructor]).
      specialize (IH z (qinv_step z x x1 Q R0 Hs) R1).
      destruct (sc_step_reads x x1 Hs (qi_none _ _ Q)) as [(s' & Rd & E' & E & B & S0 & Em)|(B & S0 & Em & Er)]; [|rewrite B in IH; lia].
      enough (length (sc_body x1) <= length (sc_body s'))%nat by (rewrite B in *; lia). unfold sc_read in Rd.
      destruct (sc_sched s') as [|[k er] r]; [discriminate|]. cbv zeta in Rd.
      destruct (match (match er with ENone => _ | EEOF => _ | ETimeout => _ | EOther => _ end) with ENone => _ | EEOF => _ | ETimeout => _ | EOther => _ end) as [e0 em0] in Rd.
      injection Rd as <-. cbn [sc_body]. rewrite skipn_length. lia. }
    destruct (sc_step_reads a a1 Hs (qi_none _ _ Q)) as [(s' & Rd & E' & Ea & Ba & S0 & Em)|(Ba & S0 & Em & Er)].
    + destruct (sc_read_quiet s' a1 Rd E') as [Ls C]; [rewrite Em; apply (qi_le _ _ Q)|]. rewrite S0 in Ls. rewrite Ba, Em in C.
      pose proof (Len a1 b R s0 Q1 R1) as L2. rewrite B in L2.
      destruct C as [(C1 & C2 & C3 & C4)|[(C1 & C2 & C3)|[(C1 & C2 & C3 & C4)|(C1 & C2 & C3)]]].
      * destruct (IH E (eq_trans B (eq_sym C2)) Q1 R1) as (X1 & X2 & X3). split; [lia|]. split; [exact Ea|lia].
      * lia.
      * destruct (IH E (eq_trans B (eq_sym C2)) Q1 R1) as (X1 & X2 & X3). congruence.
      * exfalso. assert (K : forall x y, sc_run x y -> sc_empty x = 0%nat -> sc_err x <> None -> sc_err y <> None).
        { clear. induction 1 as [x|x x1 y Hs R IH]; auto. intros Em Ex.
          destruct (sc_step_reads x x1 Hs) as [(s' & _ & _ & E & _)|(B & S0 & Em1 & Er)]; [lia|contradiction|].
          apply IH; [congruence|]. destruct Er as [Er|[Er _]]; congruence. }
        apply (K a1 b R C3 C1 E).
    + destruct (IH E (eq_trans B (eq_sym Ba)) Q1 R1) as (X1 & X2 & X3). rewrite S0, Em in *. split; [exact X1|].
      split; [|exact X3]. destruct Er as [Er|[Er1 Er2]]; congruence.
Qed.
