(** A quote inside a label value: the monitor refuses the report (C121).
    /repo/prometheus/parse.go:94-145 (a label's value ends at the first quote; behind it only a comma or a closing brace is accepted),
    /repo/prometheus/parse.go:27-40 and /repo/monitor/monitor.go:142-152 (an error drops the whole message). *)
From Verif Require Import Base Convert NumSpec NumProofs Prom RulesSpec RulesProofs PromSpec PromParse PromProofs PromMonitor PromTop PromStats LabelText.
Local Open Scope nat_scope.

(** Behind complete labels anything but a closing brace or a comma is an error. *)
Lemma labels_stuck u ls : label_items u ls -> forall fuel p x w base i out,
  i = length p -> length u < fuel -> x <> rbrace -> x <> comma -> labels_parse fuel (p ++ u ++ x :: w) base i out = LErr.
Proof.
  induction 1 as [n v Hn Hv|n v u ls Hn Hv Hu IH]; intros fuel p x w base i out Hi Hf X1 X2.
  - destruct fuel as [|f]; [lia|]. rewrite (labels_step f _ base i out n v (x :: w) p eq_refl (eq_sym Hi) Hn Hv). cbv zeta.
    apply Ascii.eqb_neq in X1, X2. rewrite X1, X2. reflexivity.
  - destruct fuel as [|f]; [lia|]. set (it := label_item n v) in *. set (s := p ++ (it ++ [comma] ++ u) ++ x :: w).
    assert (Es : s = p ++ it ++ (comma :: u ++ x :: w)). { unfold s. rewrite <- !app_assoc. reflexivity. }
    pose proof (labels_step f s base i out n v (comma :: u ++ x :: w) p Es (eq_sym Hi) Hn Hv) as X.
    cbv zeta in X. cbn [Ascii.eqb] in X. replace (Ascii.eqb comma rbrace) with false in X by reflexivity. rewrite Ascii.eqb_refl in X. rewrite X.
    assert (Es2 : s = (p ++ it ++ [comma]) ++ u ++ x :: w). { rewrite Es, <- !app_assoc. reflexivity. }
    rewrite Es2. apply IH; auto.
    + rewrite !app_length. fold it. cbn [length]. lia.
    + rewrite !app_length in Hf. unfold it in Hf. rewrite label_item_len in Hf. cbn [length] in Hf. lia.
Qed.

Lemma line_stuck name u ls x w : plain_name name -> label_items u ls -> hd_error u <> Some rbrace -> x <> rbrace -> x <> comma ->
  ParseMetric (name ++ lbrace :: u ++ x :: w) = MErr.
Proof.
  intros (N1 & N2 & N3 & _) Hu Hh X1 X2. unfold ParseMetric.
  destruct (Nat.ltb_spec (length (name ++ lbrace :: u ++ x :: w)) 3) as [L|_]; [reflexivity|].
  rewrite (index_of_app (memb [sp; lbrace]) name lbrace (u ++ x :: w)).
  - rewrite app_nth2 by lia. rewrite Nat.sub_diag. cbn [nth]. rewrite Ascii.eqb_refl.
    assert (E : skipn (length name + 1) (name ++ lbrace :: u ++ x :: w) = u ++ x :: w).
    { rewrite skipn_add, skipn_app_len by reflexivity. reflexivity. }
    rewrite E. pose proof (label_items_nonempty _ _ Hu) as Ne. destruct u as [|c u]; [congruence|].
    unfold parseLabels. cbn [app]. destruct (Ascii.eqb c rbrace) eqn:B; [apply Ascii.eqb_eq in B; subst c; exfalso; apply Hh; reflexivity|].
    pose proof (labels_stuck _ _ Hu (S (length (c :: u ++ x :: w))) [] x w (length name + 1) 0 [] eq_refl) as Q.
    cbn [app] in Q. rewrite Q; auto. cbn [length]. rewrite app_length. lia.
  - apply Forall_forall. intros y Hy. apply memb_false. intros [E|[E|[]]]; subst y; auto.
  - reflexivity.
Qed.

Section Sorted.
  Variable gs : forall A : Type, (A -> A -> bool) -> list A -> list A.
  Hypothesis Hs : sorts gs.

  Lemma metric_stuck name host comp v0 x rest v ms : plain_name name -> one_piece host -> one_piece comp -> one_piece v0 ->
    x <> rbrace -> x <> comma ->
    ParseMetric (MetricToBytes gs name (NewLabels host comp (v0 ++ dq :: x :: rest)) v ms) = MErr.
  Proof.
    intros N [Hh1 Hh2] [Hc1 Hc2] [Hv1 Hv2] X1 X2. set (ls := [(lit "component", comp); (lit "host", host); (lit "name", v0)]).
    assert (NQ : forall s : bytes, ~ In dq s -> no_eqdq s) by (intros s Nq p q ->; apply Nq; apply in_app_iff; right; right; left; reflexivity).
    assert (Fk : Forall ok_label ls).
    { unfold ls. repeat (apply Forall_cons; [split; [apply NQ; cbn; intuition discriminate|assumption]|]). apply Forall_nil. }
    assert (E : MetricToBytes gs name (NewLabels host comp (v0 ++ dq :: x :: rest)) v ms =
      name ++ lbrace :: join_labels ls ++ x :: rest ++ [dq; rbrace] ++ [sp] ++ FormatInt v ++ (if (0 <? ms)%Z then [sp] ++ FormatInt ms else [])).
    { unfold MetricToBytes. rewrite metric_bytes_served, new_labels_sorted by auto. unfold ls, served_line, identity, join_labels, label_item.
      repeat (rewrite <- app_assoc; cbn [app]). reflexivity. }
    rewrite E. apply (line_stuck name (join_labels ls) ls); auto.
    - apply label_items_join; [discriminate|auto].
    - cbn. discriminate.
  Qed.

  (** The first line of a report's text. *)
  Lemma report_first r : report_frame_ok r -> exists name v ms more, plain_name name /\ int64 v /\ int64 ms /\
    report_text gs r = MetricToBytes gs name (report_labels r) v ms ++ more /\ (more = [] \/ exists m, more = nl :: m).
  Proof.
    intros (_ & _ & K). destruct r as [counters nanos ls|name value nanos ls]; cbn [report_labels report_text] in *.
    - destruct K as (Ne & ND & Fn & Hn). set (f := fun c : bytes * Z => fst c ++ LabelsToBytes gs ls).
      assert (NDk : NoDup (map f counters)).
      { clear - ND. induction counters as [|c r IH]; cbn [map] in *; [constructor|]. inversion ND; subst. constructor; auto.
        intros X. apply in_map_iff in X. destruct X as (c' & E & Hin). unfold f in E. apply app_inv_tail in E.
        apply H1. apply in_map_iff. exists c'. auto. }
      unfold SnapshotToPrometheus. pose proof (fold_put_new f counters [] NDk) as Ef. unfold f at 1 in Ef. rewrite Ef. clear Ef. cbn [app].
      set (set0 := map (fun c => (f c, c)) counters).
      assert (Ek : map fst set0 = map f counters) by (unfold set0; rewrite map_map; reflexivity).
      assert (NDs : NoDup (map fst set0)) by (rewrite Ek; auto).
      destruct (Hs bytes bltb (map fst set0) bltb_weak) as [P _]. destruct (gs bytes bltb (map fst set0)) as [|k ks] eqn:Eks.
      { apply Permutation_sym, Permutation_nil in P. rewrite Ek in P. destruct counters; [congruence|discriminate]. }
      assert (Hk : In k (map f counters)).
      { rewrite <- Ek. eapply Permutation_in; [apply Permutation_sym; exact P|]. left; auto. }
      apply in_map_iff in Hk. destruct Hk as (c & <- & Hc').
      assert (Hg : map_get (f c) set0 = Some c) by (apply In_get; auto; unfold set0; apply in_map_iff; exists c; auto).
      set (g := fun k : bytes => match map_get k set0 with
                                 | Some c0 => MetricToBytes gs (fst c0) ls (wrap64 (snd c0)) (timeToMillis nanos) ++ [nl]
                                 | None => [] end).
      rewrite Forall_forall in Fn.
      exists (fst c), (wrap64 (snd c)), (timeToMillis nanos), (nl :: concat (map g ks)).
      split; [apply (Fn c Hc')|]. split; [apply wrap64_range|]. split; [apply millis_int64; auto|]. split; [|eauto].
      change (concat (map g (gs bytes bltb (map fst set0))) = MetricToBytes gs (fst c) ls (wrap64 (snd c)) (timeToMillis nanos) ++ nl :: concat (map g ks)).
      rewrite Eks. cbn [map concat].
      replace (g (f c)) with (MetricToBytes gs (fst c) ls (wrap64 (snd c)) (timeToMillis nanos) ++ [nl]) by (unfold g; rewrite Hg; reflexivity).
      rewrite <- app_assoc. reflexivity.
    - destruct K as (Kn & Kv & Kt). exists name, value, (timeToMillis nanos), [].
      split; [exact Kn|]. split; [exact Kv|]. split; [apply millis_int64; auto|]. split; [|auto]. rewrite app_nil_r. reflexivity.
  Qed.

  (** The monitor drops every such report, whole, and its set of metrics stays what it was. *)
  Lemma report_lost r host comp v0 x rest set order : report_frame_ok r -> report_labels r = NewLabels host comp (v0 ++ dq :: x :: rest) ->
    one_piece host -> one_piece comp -> one_piece v0 -> x <> rbrace -> x <> comma -> ~ In nl (x :: rest) ->
    mon_step gs set (EMsg (report_text gs r) order) = Some (set, None).
  Proof.
    intros K El Hh Hc Hv X1 X2 Xn. destruct (report_first r K) as (name & v & ms & more & Kn & Iv & Im & E & M).
    assert (P : ParseMetric (MetricToBytes gs name (report_labels r) v ms) = MErr) by (rewrite El; apply metric_stuck; auto).
    assert (Ln : ~ In nl (MetricToBytes gs name (report_labels r) v ms)).
    { unfold MetricToBytes. rewrite metric_bytes_served. apply served_no_newline; auto; [apply Kn|]. rewrite El, new_labels_sorted by auto.
      destruct Hh as [_ Hh], Hc as [_ Hc], Hv as [_ Hv].
      apply Forall_cons; [split; [cbn; intuition discriminate|exact Hc]|]. apply Forall_cons; [split; [cbn; intuition discriminate|exact Hh]|].
      apply Forall_cons; [split; [cbn; intuition discriminate|]|apply Forall_nil]. cbn [snd]. intros I0. apply in_app_iff in I0.
      destruct I0 as [I0|[I0|I0]]; [auto|discriminate|auto]. }
    set (line := MetricToBytes gs name (report_labels r) v ms) in *.
    assert (Nline : line <> []).
    { unfold line, MetricToBytes, metric_bytes. destruct Kn as (Kn & _). destruct name; [congruence|discriminate]. }
    assert (Q : ParseMetrics gs (report_text gs r) = PsErr).
    { rewrite E. unfold ParseMetrics. destruct M as [->|(m & ->)].
      - rewrite app_nil_r, split_nl_none by exact Ln. cbn [parse_lines]. destruct line; [congruence|]. rewrite P. reflexivity.
      - rewrite split_nl_app by exact Ln. cbn [parse_lines]. destruct line; [congruence|]. rewrite P. reflexivity. }
    cbn [mon_step]. rewrite Q. reflexivity.
  Qed.
End Sorted.
