(** What a bucket prints. *)
From Verif Require Import Base Text TextSpec TextProofs Convert NumSpec NumProofs Avg AvgSpec AvgProofs AvgNum RulesSpec RulesProofs.
Local Open Scope Z_scope.

Lemma bltb_weak : strict_weak bltb.
Proof.
  split; [apply bltb_irrefl|]. split; [apply bltb_trans|].
  intros a b c H1 H2 H3 H4. rewrite (bltb_total a b), (bltb_total b c) by auto. split; apply bltb_irrefl.
Qed.

(** Sorted and without duplicates: strictly ascending. *)
Lemma ascending (l : list bytes) : in_order bltb l -> NoDup l ->
  forall i j a b, (i < j)%nat -> nth_error l i = Some a -> nth_error l j = Some b -> bltb a b = true.
Proof.
  intros O D i j a b L Ha Hb. destruct (bltb a b) eqn:E; auto. exfalso.
  assert (a = b) by (apply bltb_total; auto; eapply O; eauto). subst b.
  assert (Hj : (j < length l)%nat) by (apply nth_error_Some; congruence).
  rewrite (proj1 (NoDup_nth_error l) D j i) in L; auto; [lia|congruence].
Qed.

Section Print.
  Variable fo : floatOps.
  Variable gosort : forall A : Type, (A -> A -> bool) -> list A -> list A.
  Hypothesis Hs : sorts gosort.

  Definition val_text (fp : fieldPairs fo) (n : bytes) : bytes := match mget fp n with Some v => valueBytes fo v | None => [] end.

  Lemma fields_loop_join fp ns : fields_loop fo fp ns = join_comma (map (fun n => n ++ eqs :: val_text fp n) ns).
  Proof.
    induction ns as [|n ns IH]; auto. cbn [fields_loop map]. fold (val_text fp n). destruct ns as [|m ns].
    - cbn [map join_comma]. rewrite app_nil_r. auto.
    - rewrite IH. cbn [map]. set (x := m ++ eqs :: val_text fp m). match goal with |- context [map ?f ns] => set (l := map f ns) end.
      change (join_comma ((n ++ eqs :: val_text fp n) :: x :: l)) with ((n ++ eqs :: val_text fp n) ++ comma :: join_comma (x :: l)).
      rewrite <- app_assoc. reflexivity.
  Qed.

  Lemma good_values k n pts : Forall (good_point fo) pts -> Forall (good_val fo) (values k n pts).
  Proof.
    intros F. apply Forall_forall. intros v I. unfold values in I. apply in_flat_map in I. destruct I as (pt & Ip & I).
    destruct (beqs (fst pt) k); [|contradiction]. apply in_flat_map in I. destruct I as (f & If & I).
    destruct (beqs (fst f) n); [|contradiction]. destruct I as [<-|[]].
    pose proof (proj1 (Forall_forall _ _) F pt Ip) as (_ & _ & _ & G).
    apply (proj1 (Forall_forall _ _) G f If).
  Qed.

  Lemma field_value pts k n : Forall (good_point fo) pts -> values k n pts <> [] ->
    exists fv, field_in fo (bucket_of fo pts) k n = Some fv /\ summarises fo (values k n pts) (valueBytes fo fv).
  Proof.
    intros F N. rewrite field_history by auto. apply field_summary; auto. apply good_values; auto.
  Qed.

  Lemma field_absent pts k n : Forall (good_point fo) pts -> values k n pts = [] -> field_in fo (bucket_of fo pts) k n = None.
  Proof. intros F N. rewrite field_history by auto. rewrite N. auto. Qed.

  Lemma join_ne l : l <> [] -> Forall (fun x : bytes => x <> []) l -> join_comma l <> [].
  Proof.
    intros N F. destruct l as [|x l]; [congruence|]. inversion F; subst. destruct l; auto.
    cbn [join_comma]. destruct x; [congruence|discriminate].
  Qed.

  Definition entry_text (ts : Z) (e : bytes * fieldPairs fo * list bytes) : bytes :=
    fst (fst e) ++ [sp] ++ match fieldsBytes fo gosort (snd (fst e)) (snd e) with [] => [] | fb => fb ++ [sp] end ++
      FormatInt (wrap64 ts) ++ [nl].

  Lemma bucketBytes_entries ts order : bucketBytes fo gosort ts order = concat (map (entry_text ts) order).
  Proof.
    induction order as [|[[k f] ns] order IH]; auto. cbn [bucketBytes map concat]. unfold entry_text at 1. cbn [fst snd].
    rewrite IH, <- !app_assoc. auto.
  Qed.

  Lemma entry_ok pts ts k fields names : Forall (good_point fo) pts -> int64 ts ->
    In (k, fields) (bucket_of fo pts) -> Permutation (map fst fields) names ->
    series_line fo pts ts k (entry_text ts (k, fields, names)).
  Proof.
    intros F Its I P. destruct (bucket_of_wf fo pts) as [D Df].
    assert (Dn : NoDup (map fst fields)) by (apply (proj1 (Forall_forall _ _) Df _ I)).
    assert (G : mget (bucket_of fo pts) k = Some fields) by (apply mget_nodup; auto).
    destruct (Hs bytes bltb names bltb_weak) as [Ps Os]. set (ns := gosort bytes bltb names) in *.
    assert (P' : Permutation (map fst fields) ns) by (etransitivity; eauto).
    assert (Dns : NoDup ns) by (eapply Permutation_NoDup; eauto).
    assert (V : forall n, In n ns <-> values k n pts <> []).
    { intros n. destruct (values k n pts) as [|v vs] eqn:E.
      - pose proof (field_absent pts k n F E) as A. unfold field_in in A. rewrite G in A. apply mget_None in A.
        split; [|congruence]. intros In1. exfalso. apply A. eapply Permutation_in; [apply Permutation_sym; eauto|auto].
      - split; [discriminate|]. intros _. destruct (field_value pts k n F) as (fv & A & _); [congruence|].
        unfold field_in in A. rewrite G in A. apply mget_In in A. eapply Permutation_in; [eauto|]. apply in_map_iff. exists (n, fv). auto. }
    assert (Nns : ns <> []).
    { destruct (proj1 (series_present fo pts k F)) as (pt & Ip & <-); [congruence|].
      pose proof (proj1 (Forall_forall _ _) F pt Ip) as (_ & Ne & _). destruct (snd pt) as [|[n v] fs] eqn:Ef; [congruence|].
      intros En. assert (X : In n ns); [|rewrite En in X; contradiction]. apply V. unfold values. intros Ev.
      apply in_split in Ip. destruct Ip as (p1 & p2 & ->). rewrite flat_map_app in Ev. cbn [flat_map] in Ev.
      rewrite beqs_refl, Ef in Ev. cbn [flat_map fst] in Ev. rewrite beqs_refl in Ev.
      apply app_eq_nil in Ev. destruct Ev as [_ Ev]. discriminate. }
    exists (map (fun n => (n, val_text fields n)) ns), (FormatInt (wrap64 ts)).
    split; [destruct ns; [congruence|discriminate]|].
    assert (M : map fst (map (fun n => (n, val_text fields n)) ns) = ns) by (rewrite map_map; cbn [fst]; apply map_id).
    rewrite M. split; [apply ascending; auto|]. split; [auto|]. split; [|split].
    - apply Forall_forall. intros f If. apply in_map_iff in If. destruct If as (n & <- & In1). cbn [fst snd].
      destruct (field_value pts k n F) as (fv & A & Sm); [apply V; auto|]. unfold field_in in A. rewrite G in A.
      unfold val_text. rewrite A. auto.
    - rewrite wrap64_id by auto. apply FormatInt_spec; auto.
    - unfold entry_text. cbn [fst snd]. unfold fieldsBytes. destruct fields as [|f0 fields].
      { exfalso. apply Permutation_nil in P'. auto. }
      fold ns. rewrite fields_loop_join. rewrite map_map. cbn [fst snd].
      destruct (join_comma (map (fun n => n ++ eqs :: val_text (f0 :: fields) n) ns)) as [|c l] eqn:Ej.
      { exfalso. revert Ej. apply join_ne; [destruct ns; [congruence|discriminate]|].
        apply Forall_forall. intros x Ix. apply in_map_iff in Ix. destruct Ix as (n & <- & _). destruct n; discriminate. }
      change (map (fun x : bytes => x ++ eqs :: val_text (f0 :: fields) x) ns) with (map (fun n : list ascii => n ++ eqs :: val_text (f0 :: fields) n) ns).
      rewrite Ej. cbn [app]. rewrite <- ?app_assoc. reflexivity.
  Qed.

  Theorem print_ok pts ts order : Forall (good_point fo) pts -> int64 ts -> iteration_of fo (bucket_of fo pts) order ->
    exists ls, NoDup (map fst ls) /\ (forall k, In k (map fst ls) <-> exists pt, In pt pts /\ fst pt = k) /\
      Forall (fun kl => series_line fo pts ts (fst kl) (snd kl)) ls /\
      bucketBytes fo gosort ts order = concat (map snd ls).
  Proof.
    intros F Its [P N]. exists (map (fun e => (fst (fst e), entry_text ts e)) order).
    assert (M : map fst (map (fun e => (fst (fst e), entry_text ts e)) order) = map fst (map fst order)) by (rewrite !map_map; auto).
    destruct (bucket_of_wf fo pts) as [D _]. apply (Permutation_map fst) in P as Pk.
    split; [|split; [|split]].
    - rewrite M. eapply Permutation_NoDup; eauto.
    - intros k. rewrite M. rewrite <- (series_present fo pts k F).
      rewrite mget_None. split.
      + intros I X. apply X. eapply Permutation_in; [apply Permutation_sym; eauto|auto].
      + intros X. destruct (in_dec (list_eq_dec ascii_dec) k (map fst (bucket_of fo pts))) as [I|I]; [|contradiction].
        eapply Permutation_in; eauto.
    - apply Forall_forall. intros kl I. apply in_map_iff in I. destruct I as ([[k f] ns] & <- & I). cbn [fst snd].
      apply entry_ok; auto.
      + eapply Permutation_in; [apply Permutation_sym; eauto|]. apply in_map_iff. exists (k, f, ns). auto.
      + apply (proj1 (Forall_forall _ _) N _ I).
    - rewrite bucketBytes_entries, map_map. cbn [snd]. auto.
  Qed.

  (* -------------------------------------------------------------- *)
  (** * Type-consistent input gives well-formed output *)

  Lemma last_map_in (vs : list fval) (v : fval) : exists w, In w (v :: vs) /\ last (map vraw vs) (vraw v) = vraw w.
  Proof.
    revert v. induction vs as [|x vs IH]; intros v; [exists v; simpl; auto|].
    destruct vs as [|y vs].
    - exists x. simpl. auto.
    - destruct (IH v) as (w & I & E). cbn [map] in *. exists w. split.
      + destruct I as [<-|I]; simpl; auto.
      + cbn [last]. rewrite <- E. auto.
  Qed.

  Lemma last_map_last (vs : list fval) (v : fval) : last (map vraw vs) (vraw v) = vraw (last vs v).
  Proof. induction vs as [|x vs IH]; [reflexivity|]. destruct vs as [|y vs]; [reflexivity|]. cbn [map last] in *. exact IH. Qed.

  Lemma last_in_cons (vs : list fval) (v : fval) : In (last vs v) (v :: vs).
  Proof.
    induction vs as [|x vs IH]; [left; reflexivity|]. destruct vs as [|y vs]; [right; left; reflexivity|].
    cbn [last] in *. destruct IH as [IH|IH]; [left; exact IH|right; right; exact IH].
  Qed.

  Lemma has_pair_bsl set s : has_pair bsl set s -> In bsl s.
  Proof. intros (p & c & q & -> & _). apply in_or_app. right. left. reflexivity. Qed.

  Lemma int_text_in txt z c : int_text txt z -> In c txt -> c = "-"%char \/ is_digit c.
  Proof.
    intros T I. destruct T as [ds [_ D]|ds [_ D]]; rewrite Forall_forall in D; [right; apply D; exact I|].
    destruct I as [<-|I]; [left; reflexivity|right; apply D; exact I].
  Qed.

  Lemma int_text_fun txt z z' : int_text txt z -> int_text txt z' -> z = z'.
  Proof.
    intros T T'. inversion T as [ds D|ds D]; subst; inversion T' as [ds' D'|ds' D']; subst; try reflexivity.
    - destruct D as [_ D]. inversion D as [|? ? X _]; subst. exfalso. unfold is_digit in X. vm_compute in X. destruct X. congruence.
    - destruct D' as [_ D']. inversion D' as [|? ? X _]; subst. exfalso. unfold is_digit in X. vm_compute in X. destruct X. congruence.
  Qed.

  (** Any good value can be quoted. *)
  Lemma quotable v : good_val fo v -> good_val fo (FStr (vraw v)).
  Proof.
    assert (B : forall txt, bare txt -> ~ ends_in bsl txt /\ (~ In dq txt \/ ~ has_pair bsl [comma; sp; eqs] txt)).
    { intros txt (_ & Nb & _). assert (N : ~ In bsl txt) by (apply Nb; right; left; reflexivity). split.
      - intros (p & ->). apply N. apply in_or_app. right. left. reflexivity.
      - right. intros P. apply N. eapply has_pair_bsl. exact P. }
    destruct v as [txt z|txt|s|txt]; cbn [good_val vraw].
    - intros [T I64]. split; [|split].
      + intros (p & E). apply app_inj_tail in E. destruct E as [_ E]. discriminate.
      + left. rewrite in_app_iff. intros [X|[X|[]]]; [|discriminate]. destruct (int_text_in _ _ _ T X) as [Y|Y]; [discriminate Y|]. unfold is_digit in Y. vm_compute in Y. destruct Y. congruence.
      + intros t z' E T'. apply app_inj_tail in E. destruct E as [<- _]. assert (z' = z) by (eapply int_text_fun; eauto). subst z'.
        destruct I64. unfold minInt64, maxInt64, two63 in *. lia.
    - intros (Bt & Ni & _). destruct (B txt Bt). split; [assumption|]. split; [assumption|]. intros t z E _. exfalso. apply Ni. exists t. exact E.
    - auto.
    - intros (Bt & _ & Ni). destruct (B txt Bt). split; [assumption|]. split; [assumption|]. intros t z E T. exfalso. apply Ni. exists t, z. auto.
  Qed.

  Lemma summary_iff vs txt : formats_well fo -> Forall (good_val fo) vs -> summarises fo vs txt ->
    ((exists v, good_val fo v /\ vtext v = txt) <->
     forall t vs' s, vs = FTok t :: vs' -> last vs' (FTok t) = FStr s -> exists v, good_val fo v /\ vtext v = s).
  Proof.
    intros Hf F H. inversion H as [s vs' | t vs' | t z vs' os tx R D | t x vs' P]; subst.
    - split; [intros _ t vs1 s1 E; discriminate|]. intros _.
      pose proof (last_map_last vs' (FStr s)) as E. cbn [vraw] in E. rewrite E. rewrite Forall_forall in F.
      exists (FStr (vraw (last vs' (FStr s)))). split; [apply quotable; apply F; apply last_in_cons|reflexivity].
    - pose proof (last_map_last vs' (FTok t)) as E. cbn [vraw] in E. rewrite E. rewrite Forall_forall in F.
      pose proof (F _ (last_in_cons vs' (FTok t))) as G. split.
      + intros X t1 vs1 s1 E1 L. injection E1 as <- <-. rewrite L in X. cbn [vraw] in X. exact X.
      + intros X. destruct (last vs' (FTok t)) as [a b|a|a|a] eqn:L; [eexists; split; [exact G|reflexivity]..|eapply X; eauto|eexists; split; [exact G|reflexivity]].
    - split; [intros _ t1 vs1 s1 E; discriminate|]. intros _.
      inversion F as [|? ? G _]; subst. destruct G as [T I]. exists (FInt tx (int_running z 1 os)). cbn [good_val vtext]. split; auto.
      split; [apply D|]. apply int_running_range; auto.
    - split; [intros _ t1 vs1 s1 E; discriminate|]. intros _. eexists (FNum _). split; [apply Hf|]. reflexivity.
  Qed.

  Lemma consistent_settled pts : consistent pts -> settled fo pts.
  Proof.
    intros C k n t vs s E L. pose proof (last_in_cons vs (FTok t)) as I. rewrite L in I.
    assert (K : kind (FStr s) = kind (FTok t)) by (apply (C k n); rewrite E; [exact I|left; reflexivity]). discriminate.
  Qed.

  Lemma names_good pts k n : Forall (good_point fo) pts -> values k n pts <> [] -> shielded eqs n /\ shielded sp k.
  Proof.
    intros F N. destruct (values k n pts) as [|v vs] eqn:E; [congruence|].
    assert (I : In v (values k n pts)) by (rewrite E; simpl; auto). unfold values in I. apply in_flat_map in I.
    destruct I as (pt & Ip & I). destruct (beqs (fst pt) k) eqn:Ek; [|contradiction]. apply beqs_eq in Ek. subst k.
    apply in_flat_map in I. destruct I as (f & If & I). destruct (beqs (fst f) n) eqn:En; [|contradiction].
    apply beqs_eq in En. subst n.
    pose proof (proj1 (Forall_forall _ _) F pt Ip) as (Sk & _ & _ & G).
    split; auto. apply (proj1 (Forall_forall _ _) G f If).
  Qed.

  Lemma ascending_NoDup (l : list bytes) :
    (forall i j a b, (i < j)%nat -> nth_error l i = Some a -> nth_error l j = Some b -> bltb a b = true) -> NoDup l.
  Proof.
    intros H. apply NoDup_nth_error. intros i j L E.
    assert (Hj : (j < length l)%nat) by (apply nth_error_Some; rewrite <- E; apply nth_error_Some; auto).
    destruct (nth_error l i) as [a|] eqn:Ea; [|apply nth_error_None in Ea; lia].
    destruct (Nat.lt_trichotomy i j) as [X|[X|X]]; auto; exfalso.
    - pose proof (H i j a a X Ea (eq_sym E)) as Y. rewrite bltb_irrefl in Y. discriminate.
    - pose proof (H j i a a X (eq_sym E) Ea) as Y. rewrite bltb_irrefl in Y. discriminate.
  Qed.

  Lemma series_line_good pts ts k line : formats_well fo -> Forall (good_point fo) pts -> settled fo pts ->
    series_line fo pts ts k line -> exists pt, fst pt = k /\ good_point fo pt /\ stamped_line ts pt line.
  Proof.
    intros Hf F C (fields & tx & Ne & As & V & Sm & D & ->).
    assert (X : exists fs : list (bytes * fval), map fst fs = map fst fields /\ map (fun f => fst f ++ eqs :: snd f) fields = map field_text fs /\
       Forall (fun f => shielded eqs (fst f) /\ good_val fo (snd f)) fs).
    { assert (V' : forall f, In f fields -> values k (fst f) pts <> []) by (intros f If; apply V; apply in_map; auto).
      clear As V Ne. induction Sm as [|[n t] fields Hx Sm IH]; [exists []; auto|].
      destruct IH as (fs & E1 & E2 & G); [intros f If; apply V'; simpl; auto|].
      cbn [fst snd] in Hx. assert (Vn : values k n pts <> []) by (apply (V' (n, t)); simpl; auto).
      destruct (proj2 (summary_iff (values k n pts) t Hf (good_values k n _ F) Hx)) as (v & Gv & <-).
      { intros t0 vs' s E L. eapply C; eauto. }
      exists ((n, v) :: fs). cbn [map fst snd field_text]. rewrite E1, E2. split; auto. split; auto.
      constructor; auto. cbn [fst snd]. split; auto. eapply names_good; eauto. }
    destruct X as (fs & E1 & E2 & G). exists (k, fs). split; auto. split.
    - split; [|split; [|split]]; cbn [fst snd]; auto.
      + destruct fields as [|f fields]; [congruence|]. assert (Vn : values k (fst f) pts <> []) by (apply V; simpl; auto).
        eapply names_good; eauto.
      + intros ->. destruct fields; [congruence|discriminate].
      + rewrite E1. apply ascending_NoDup; auto.
    - exists tx. split; auto. unfold point_text. cbn [fst snd]. rewrite <- E2. rewrite <- app_assoc. reflexivity.
  Qed.

  Lemma print_good pts ts order : formats_well fo -> Forall (good_point fo) pts -> settled fo pts -> int64 ts ->
    iteration_of fo (bucket_of fo pts) order ->
    exists outs lines, Forall (good_point fo) outs /\ NoDup (map fst outs) /\
      Forall2 (stamped_line ts) outs lines /\ bucketBytes fo gosort ts order = concat lines.
  Proof.
    intros Hf F C Its It. destruct (print_ok pts ts order F Its It) as (ls & D & _ & Sl & ->).
    clear It. induction Sl as [|[k line] ls Hx Sl IH]; [exists [], []; repeat split; constructor|].
    cbn [map fst snd] in *. inversion D as [|? ? N D']; subst.
    destruct (series_line_good pts ts k line Hf F C Hx) as (pt & Ek & G & St).
    assert (Y : exists outs lines, map fst outs = map fst ls /\ Forall (good_point fo) outs /\
      Forall2 (stamped_line ts) outs lines /\ concat (map snd ls) = concat lines).
    { clear -Hf F C Sl. induction Sl as [|[k line] ls Hx Sl IH]; [exists [], []; repeat split; constructor|].
      destruct IH as (outs & lines & E1 & G & St & E2).
      destruct (series_line_good pts ts k line Hf F C Hx) as (pt & Ek & Gp & Sp).
      exists (pt :: outs), (line :: lines). cbn [map fst snd concat]. rewrite E1, E2, Ek. repeat split; constructor; auto. }
    destruct Y as (outs & lines & E1 & Go & So & E2). exists (pt :: outs), (line :: lines).
    cbn [map concat]. rewrite E1, E2, Ek. repeat split; constructor; auto.
  Qed.

  (* -------------------------------------------------------------- *)
  (** * Any lines at all *)
  Definition bucket_from (ls : list bytes) : avgBucket fo := fold_left (fun b l => fst (AddLine fo b l)) ls [].

  Lemma bucket_from_wf ls : bucket_wf fo (bucket_from ls).
  Proof.
    induction ls as [|l ls IH] using rev_ind; [split; constructor|].
    unfold bucket_from. rewrite fold_left_app. cbn [fold_left]. apply AddLine_wf. auto.
  Qed.

  Lemma print_any ls ts order : int64 ts -> iteration_of fo (bucket_from ls) order ->
    exists out : list (bytes * bytes), Permutation (map fst (bucket_from ls)) (map fst out) /\ NoDup (map fst out) /\
      bucketBytes fo gosort ts order = concat (map snd out) /\
      Forall (fun kl => exists (fields : list (bytes * bytes)) tstxt,
        (forall i j a b, (i < j)%nat -> nth_error (map fst fields) i = Some a -> nth_error (map fst fields) j = Some b -> bltb a b = true) /\
        (forall n, In n (map fst fields) <-> field_in fo (bucket_from ls) (fst kl) n <> None) /\
        Forall (fun f => exists v, field_in fo (bucket_from ls) (fst kl) (fst f) = Some v /\ snd f = valueBytes fo v) fields /\
        dec_text ts tstxt /\
        snd kl = fst kl ++ sp :: (match fields with [] => [] | _ => join_comma (map (fun f => fst f ++ eqs :: snd f) fields) ++ [sp] end) ++ tstxt ++ [nl]) out.
  Proof.
    intros Its [P N]. set (out := map (fun e => ((fst (fst e), entry_text ts e) : bytes * bytes)) order).
    assert (M : map fst out = map fst (map fst order)) by (unfold out; rewrite !map_map; auto). exists out.
    destruct (bucket_from_wf ls) as [D Df]. apply (Permutation_map fst) in P as Pk. rewrite M.
    split; auto. split; [eapply Permutation_NoDup; eauto|]. split; [unfold out; rewrite bucketBytes_entries, map_map; auto|].
    apply Forall_forall. intros kl I. unfold out in I. apply in_map_iff in I. destruct I as ([[k f] ns0] & <- & I). cbn [fst snd].
    assert (Ib : In (k, f) (bucket_from ls)) by (eapply Permutation_in; [apply Permutation_sym; eauto|]; apply in_map_iff; exists (k, f, ns0); auto).
    assert (Pn : Permutation (map fst f) ns0) by apply (proj1 (Forall_forall _ _) N _ I).
    assert (Dn : NoDup (map fst f)) by (apply (proj1 (Forall_forall _ _) Df _ Ib)).
    assert (G : mget (bucket_from ls) k = Some f) by (apply mget_nodup; auto).
    destruct (Hs bytes bltb ns0 bltb_weak) as [Ps Os]. set (ns := gosort bytes bltb ns0) in *.
    assert (P' : Permutation (map fst f) ns) by (etransitivity; eauto).
    assert (Dns : NoDup ns) by (eapply Permutation_NoDup; eauto).
    exists (map (fun n => (n, val_text f n)) ns), (FormatInt (wrap64 ts)).
    assert (M' : map fst (map (fun n => (n, val_text f n)) ns) = ns) by (rewrite map_map; cbn [fst]; apply map_id).
    rewrite M'. split; [apply ascending; auto|]. split; [|split; [|split]].
    - intros n. unfold field_in. rewrite G. rewrite mget_None. split.
      + intros In1 X. apply X. eapply Permutation_in; [apply Permutation_sym; eauto|auto].
      + intros X. destruct (in_dec (list_eq_dec ascii_dec) n (map fst f)) as [I1|I1]; [|contradiction].
        eapply Permutation_in; eauto.
    - apply Forall_forall. intros x Ix. apply in_map_iff in Ix. destruct Ix as (n & <- & In1). cbn [fst snd].
      unfold field_in, val_text. rewrite G. destruct (mget f n) as [v|] eqn:Gv; [eauto|].
      exfalso. apply mget_None in Gv. apply Gv. eapply Permutation_in; [apply Permutation_sym; eauto|auto].
    - rewrite wrap64_id by auto. apply FormatInt_spec; auto.
    - unfold entry_text. cbn [fst snd]. unfold fieldsBytes. fold ns. destruct f as [|f0 f].
      + cbn [map] in P'. apply Permutation_nil in P'. rewrite P'. reflexivity.
      + rewrite fields_loop_join. rewrite map_map. cbn [fst snd].
        assert (Nns : ns <> []) by (intros X; rewrite X in P'; apply Permutation_sym, Permutation_nil in P'; discriminate).
        destruct (join_comma (map (fun n => n ++ eqs :: val_text (f0 :: f) n) ns)) as [|c l] eqn:Ej.
        { exfalso. revert Ej. apply join_ne; [destruct ns; [congruence|discriminate]|].
          apply Forall_forall. intros x Ix. apply in_map_iff in Ix. destruct Ix as (n & <- & _). destruct n; discriminate. }
        destruct ns as [|n0 ns1]; [congruence|]. cbn [map] in Ej |- *.
        match goal with |- context [join_comma ?X] => change (join_comma X) with (join_comma ((n0 ++ eqs :: val_text (f0 :: f) n0) :: map (fun n : list ascii => n ++ eqs :: val_text (f0 :: f) n) ns1)) end.
        rewrite Ej. cbn [app]. rewrite <- ?app_assoc. reflexivity.
  Qed.
End Print.
