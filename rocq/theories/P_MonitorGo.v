(** C49, C48 for the statements of prometheus/parse.go themselves: panics are those of its index and slice expressions. *)
From Verif Require Import Base Convert Prom RulesSpec RulesProofs PromSpec PromParse PromProofs PromMonitor PromTop PromStats GoLang GoProm.
Local Open Scope Z_scope.

(** What the code returns for a line (or that it panics), by the grammar alone: the entry the line reads as, an error, or
    a panic on a truncated line.  It always returns (the loop over the labels ends). *)
Theorem C49_code : forall line,
  (ParseMetric_go line = Panic <-> truncated line) /\
  (forall n ls v ms, ParseMetric_go line = Ret (Some (n, ls, v, ms)) <-> reads line (Entry n ls v ms)) /\
  (ParseMetric_go line = Ret None <-> ~ truncated line /\ forall e, ~ reads line e) /\
  ParseMetric_go line <> Unfinished.
Proof.
  intros line. rewrite ParseMetric_go_ok.
  destruct (ParseMetric line) as [| |m] eqn:E; cbn [outcome_of].
  - assert (N1 : ~ truncated line) by (intros T; apply ParseMetric_panic in T; congruence).
    assert (N2 : forall e, ~ reads line e) by (intros e R; destruct (proj2 (ParseMetric_ok line) (ex_intro _ e R)); congruence).
    split; [|split; [|split]].
    + split; [discriminate|intros T; contradiction].
    + intros n ls v ms. split; [discriminate|intros R; destruct (N2 _ R)].
    + split; auto.
    + discriminate.
  - assert (T : truncated line) by (apply ParseMetric_panic; auto).
    split; [|split; [|split]].
    + split; auto.
    + intros n ls v ms. split; [discriminate|]. intros R. destruct (proj2 (ParseMetric_ok line) (ex_intro _ _ R)); congruence.
    + split; [discriminate|]. intros [N _]. contradiction.
    + discriminate.
  - destruct (ParseMetric_sound _ _ E) as [e R]. destruct (ParseMetric_complete _ _ R) as (m' & E' & _ & A1 & _ & A2 & A3 & A4 & _).
    assert (m' = m) by congruence. subst m'.
    split; [|split; [|split]].
    + split; [discriminate|]. intros T. apply ParseMetric_panic in T. congruence.
    + intros n ls v ms. unfold says_go. rewrite A1, A2, A3, A4. split.
      * intros X. inversion X; subst. destruct e; exact R.
      * intros R'. pose proof (reads_unique _ _ _ R R') as ->. reflexivity.
    + split; [discriminate|]. intros [_ N]. destruct (N e R).
    + discriminate.
Qed.
Print Assumptions C49_code.

Lemma range_lines : forall lines k acc,
  (forall ms, range lines k metrics_body acc = Ret (Cont (acc ++ ms)) <->
     Forall2 (fun l m => ParseMetric_go l = Ret (Some m)) (filter nonempty lines) ms) /\
  (forall out, range lines k metrics_body acc = Ret (Cont out) -> exists ms, out = acc ++ ms) /\
  (range lines k metrics_body acc = Panic <-> exists a l b, filter nonempty lines = a ++ l :: b /\ ParseMetric_go l = Panic /\
     Forall (fun l => exists m, ParseMetric_go l = Ret (Some m)) a).
Proof.
  induction lines as [|line lines IH]; intros k acc.
  - cbn [range filter]. split; [|split].
    + intros ms. split.
      * intros E. assert (acc = acc ++ ms) by congruence. apply (f_equal (@length _)) in H. rewrite app_length in H. destruct ms; [constructor|cbn in H; lia].
      * intros F. inversion F. rewrite app_nil_r. reflexivity.
    + intros out E. exists []. rewrite app_nil_r. congruence.
    + split; [discriminate|]. intros (a & l & b & E & _). destruct a; discriminate.
  - destruct line as [|c line]; [apply IH|]. cbn [filter nonempty range].
    assert (Eb : metrics_body k (c :: line) acc =
      (r <- ParseMetric_go (c :: line) ;; match r with None => Ret (Leave tt) | Some m => Ret (Cont (acc ++ [m])) end)%go).
    { unfold metrics_body. replace (len (c :: line) =? 0) with false by (rewrite len_cons; pose proof (len_nonneg line); lia). reflexivity. }
    rewrite Eb. clear Eb. destruct (ParseMetric_go (c :: line)) as [[m|]| |] eqn:E; cbn [bind].
    + destruct (IH (k + 1) (acc ++ [m])) as (I1 & I2 & I3). split; [|split].
      * intros ms. split.
        -- intros R. destruct (I2 _ R) as [ms' X]. rewrite <- app_assoc in X. apply app_inv_head in X. cbn [app] in X. subst ms.
           constructor; [exact E|]. apply I1. rewrite R, <- app_assoc. reflexivity.
        -- intros F. inversion F as [|? m' ? ms' Em F']; subst. assert (m' = m) by congruence. subst m'.
           apply I1 in F'. rewrite F', <- app_assoc. reflexivity.
      * intros out R. destruct (I2 _ R) as [ms' ->]. exists (m :: ms'). rewrite <- app_assoc. reflexivity.
      * rewrite I3. split.
        -- intros (a & l & b & X & P & F). exists ((c :: line) :: a), l, b. rewrite X. split; [reflexivity|]. split; [exact P|]. constructor; eauto.
        -- intros (a & l & b & X & P & F). destruct a as [|x a]; inversion X; subst; [congruence|]. inversion F; subst. eauto 6.
    + split; [|split].
      * intros ms. split; [discriminate|]. intros F. inversion F; subst. congruence.
      * discriminate.
      * split; [discriminate|]. intros (a & l & b & X & P & F). destruct a as [|x a]; inversion X; subst; [congruence|].
        inversion F as [|? ? [m Em] _]; subst. congruence.
    + split; [|split].
      * intros ms. split; [discriminate|]. intros F. inversion F; subst. congruence.
      * discriminate.
      * split; [|reflexivity]. intros _. exists [], (c :: line), (filter nonempty lines). auto.
    + destruct (C49_code (c :: line)) as (_ & _ & _ & N). congruence.
Qed.

(** For a message: it panics exactly when it contains a truncated line before any malformed one; it hands these entries
    to the set exactly when the message says them. *)
Theorem C49_code_message : forall data,
  (ParseMetrics_go data = Panic <-> exists lines a l b, message_lines data lines /\ lines = a ++ l :: b /\
     Forall (fun l => exists e, reads l e) a /\ truncated l) /\
  (forall es, ParseMetrics_go data = Ret (Some (map (fun e => (e_name e, e_labels e, e_value e, e_ms e)) es)) <-> says data es).
Proof.
  intros data. unfold ParseMetrics_go. destruct (range_lines (split_nl data) 0 []) as (R1 & _ & R3).
  assert (Ex : forall l, (exists m, ParseMetric_go l = Ret (Some m)) <-> exists e, reads l e).
  { intros l. destruct (C49_code l) as (_ & H & _). split.
    - intros ([[[n ls] v] ms] & E). apply H in E. eauto.
    - intros ([n ls v ms] & E). apply H in E. eauto. }
  split.
  - split.
    + intros P. assert (P' : range (split_nl data) 0 metrics_body [] = Panic) by (destruct (range (split_nl data) 0 metrics_body []) as [[|]| |]; auto; discriminate).
      apply R3 in P'. destruct P' as (a & l & b & E & T & F). exists (filter nonempty (split_nl data)), a, l, b.
      split; [apply message_lines_iff; reflexivity|]. split; [exact E|]. split; [|apply C49_code; exact T].
      eapply Forall_impl; [|exact F]. intros x. apply Ex.
    + intros (lines & a & l & b & M & E & F & T). apply message_lines_iff in M. subst lines.
      rewrite (proj2 R3); [reflexivity|]. exists a, l, b. split; [auto|]. split; [apply C49_code; exact T|].
      eapply Forall_impl; [|exact F]. intros x. apply Ex.
  - intros es. split.
    + intros P. exists (filter nonempty (split_nl data)). split; [apply message_lines_iff; reflexivity|].
      assert (P' : range (split_nl data) 0 metrics_body [] = Ret (Cont ([] ++ map (fun e => (e_name e, e_labels e, e_value e, e_ms e)) es))).
      { destruct (range (split_nl data) 0 metrics_body []) as [[|]| |]; cbn [bind] in P; try discriminate. cbn [app]. congruence. }
      apply R1 in P'. clear - P'. remember (map _ es) as ms. revert es Heqms. induction P' as [|l m ls ms E F IH]; intros es Heq.
      * destruct es; [constructor|discriminate].
      * destruct es as [|[n lb v t] es]; inversion Heq; subst. constructor; [|auto]. apply C49_code. exact E.
    + intros (lines & M & F). apply message_lines_iff in M. subst lines.
      assert (F' : Forall2 (fun l m => ParseMetric_go l = Ret (Some m)) (filter nonempty (split_nl data)) (map (fun e => (e_name e, e_labels e, e_value e, e_ms e)) es)).
      { clear - F. induction F as [|l [n lb v t] ls es R F IH]; cbn [map]; constructor; auto. cbn [e_name e_labels e_value e_ms]. apply C49_code. exact R. }
      apply R1 in F'. rewrite F'. reflexivity.
Qed.
Print Assumptions C49_code_message.

(** The code and the model of the monitor (Prom.v) agree on every message: same panics, same errors, and the model's set is
    what Update makes of the parsed metrics. *)
Theorem C49_code_model : forall gs data,
  match ParseMetrics gs data with
  | PsErr => ParseMetrics_go data = Ret None
  | PsPanic => ParseMetrics_go data = Panic
  | PsOk set => exists ms, ParseMetrics_go data = Ret (Some (map says_go ms)) /\ set = fold_left (Update gs) ms []
  end.
Proof. exact ParseMetrics_go_ok. Qed.
Print Assumptions C49_code_model.

Example C49_code_case :
  ParseMetric_go (lit "foo{a=""b"",c=""""} -7 99") = Ret (Some (lit "foo", [(lit "a", lit "b"); (lit "c", [])], -7, 99)) /\
  ParseMetric_go (lit "foo{a=""b""}") = Panic /\ ParseMetric_go (lit "ab{") = Panic /\ ParseMetric_go (lit "foo{a=""b"";} 1") = Ret None /\
  ParseMetrics_go (lit "x 1" ++ [nl; nl] ++ lit "y{} 2") = Ret (Some [(lit "x", [], 1, 0); (lit "y", [], 2, 0)]).
Proof. vm_compute. repeat split. Qed.
