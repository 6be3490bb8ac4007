(** The monitor keeps what it was told: no metric it once accepted ever disappears from its answers. *)
From Verif Require Import Base Convert NumSpec Prom RulesSpec RulesProofs PromSpec PromParse PromProofs PromMonitor PromTop PromStats.
Local Open Scope Z_scope.

Lemma labels_dec (a b : list (bytes * bytes)) : {a = b} + {a <> b}.
Proof. apply list_eq_dec. intros x y. decide equality; apply (list_eq_dec ascii_dec). Qed.

Lemma latest_exists es name ls : increasing ls -> Forall (fun e => increasing (e_labels e)) es ->
  (exists e, In e es /\ e_name e = name /\ e_labels e = ls) -> exists v ms, latest es name ls v ms.
Proof.
  intros Il. induction es as [|e es IH] using rev_ind; intros F (x & I & Nx & Lx); [destruct I|].
  apply Forall_app in F. destruct F as [F Fe]. inversion Fe as [|e1 e2 Ie _]; subst e1 e2.
  destruct (list_eq_dec ascii_dec (e_name e) name) as [En|En].
  - destruct (labels_dec (e_labels e) ls) as [El|El].
    + exists (e_value e), (e_ms e), es, e, []. split; [reflexivity|]. split; [exact En|]. split; [rewrite El; apply Permutation_refl|]. split; [reflexivity|]. split; [reflexivity|]. constructor.
    + destruct IH as (v & ms & a & e' & b & -> & H); auto.
      { exists x. apply in_app_iff in I. destruct I as [I|[->|[]]]; [auto|congruence]. }
      exists v, ms, a, e', (b ++ [e]). rewrite <- app_assoc. split; auto. destruct H as (H1 & H2 & H3 & H4 & H5).
      split; auto. split; auto. split; auto. split; auto. apply Forall_app. split; auto. constructor; auto.
      intros [_ P]. apply El. apply increasing_unique; auto.
  - destruct IH as (v & ms & a & e' & b & -> & H); auto.
    { exists x. apply in_app_iff in I. destruct I as [I|[->|[]]]; [auto|congruence]. }
    exists v, ms, a, e', (b ++ [e]). rewrite <- app_assoc. split; auto. destruct H as (H1 & H2 & H3 & H4 & H5).
    split; auto. split; auto. split; auto. split; auto. apply Forall_app. split; auto. constructor; auto. intros [X _]. auto.
Qed.

Lemma answer_keeps es answer e : right_answer es answer -> Forall (fun e => increasing (e_labels e)) es -> In e es ->
  exists v ms pre post, answer = pre ++ served_line (e_name e) (e_labels e) v ms ++ [nl] ++ post /\ latest es (e_name e) (e_labels e) v ms.
Proof.
  intros (served & -> & _ & _ & W) F I. assert (Ie : increasing (e_labels e)) by (rewrite Forall_forall in F; auto).
  destruct (latest_exists es (e_name e) (e_labels e) Ie F) as (v & ms & L); [eauto|].
  exists v, ms. apply (W _ _ _ _ Ie) in L as L'. apply in_split in L'. destruct L' as (l1 & l2 & ->).
  rewrite map_app, concat_app. cbn [map concat e_name e_labels e_value e_ms].
  eexists. eexists. split; auto. f_equal. rewrite <- !app_assoc. reflexivity.
Qed.

(** What was accepted stays accepted. *)
Lemma accepted_grows later : forall evs es es2, accepted evs es -> accepted (evs ++ later) es2 -> exists new, es2 = es ++ new.
Proof.
  induction later as [|x later IH] using rev_ind; intros evs es es2 A A2.
  - rewrite app_nil_r in A2. exists []. rewrite app_nil_r. eapply accepted_unique; eauto.
  - rewrite app_assoc in A2. inversion A2 as [X|evs' es' A' X|evs' es' data order new A' Sy X|evs' es' data order A' N X].
    + destruct (app_cons_not_nil _ _ _ X).
    + apply app_inj_tail in X. destruct X as [-> _]. eauto.
    + apply app_inj_tail in X. destruct X as [-> _]. destruct (IH _ _ _ A A') as [n ->]. exists (n ++ new). rewrite app_assoc. auto.
    + apply app_inj_tail in X. destruct X as [-> _]. eauto.
Qed.

Section Keep.
  Variable gs : forall A : Type, (A -> A -> bool) -> list A -> list A.
  Hypothesis Hs : sorts gs.

  Lemma mon_keeps evs es e later es2 set outs answer : accepted evs es -> In e es -> accepted (evs ++ later) es2 -> orders_ok (evs ++ later) ->
    Forall (fun e => increasing (e_labels e)) es2 ->
    mon_run gs [] ((evs ++ later) ++ [EGet]) = Some (set, outs ++ [answer]) ->
    exists v ms pre post, answer = pre ++ served_line (e_name e) (e_labels e) v ms ++ [nl] ++ post /\ latest es2 (e_name e) (e_labels e) v ms.
  Proof.
    intros A I A2 Oo F R. apply answer_keeps; auto.
    - eapply sorted_answers; eauto.
    - destruct (accepted_grows _ _ _ _ A A2) as [n ->]. apply in_app_iff. auto.
  Qed.

  (** *** Without bound *)

  (** A host of the deployment, its only report, and n hosts that report once each. *)
  Definition host (i : nat) : bytes := repeat "x"%char i.
  Definition one (t : nat -> Z) (i : nat) : report := RCounter (lit "up") 1 (t i) [(lit "host", host i)].
  Definition once_each (t : nat -> Z) (n : nat) : list ((report * (list metric -> list metric)) + unit) :=
    map (fun i => inl (one t i, fun l => l)) (seq 0 n).

  Lemma host_in i c : In c (host i) -> c = "x"%char.
  Proof. intros H. apply repeat_spec in H. auto. Qed.

  Lemma one_ok t i : int64 (t i) -> report_ok (one t i).
  Proof.
    assert (N : forall c, "x"%char <> c -> ~ In c (host i)) by (intros c D H; apply host_in in H; congruence).
    intros Ti. cbn [report_ok one]. split; [|split; [|split; [|split]]].
    - repeat split; try discriminate; cbn; intuition discriminate.
    - constructor; [|constructor]. unfold plain_label. cbn [fst snd]. split; [|split; [|split; [|split]]].
      + intros p q E. assert (X : In dq (lit "host")).
        { rewrite E. apply in_app_iff. right. right. left. auto. }
        cbn in X. intuition discriminate.
      + cbn. intuition discriminate.
      + discriminate.
      + apply N. discriminate.
      + apply N. discriminate.
    - constructor; [intros []|constructor].
    - split; reflexivity || discriminate.
    - exact Ti.
  Qed.

  Lemma one_labels i ls : ordered_labels [(lit "host", host i)] ls -> ls = [(lit "host", host i)].
  Proof. intros [P _]. apply Permutation_length_1_inv; auto. Qed.

  Lemma once_entries t n : forall ess, Forall2 reported (map (one t) (seq 0 n)) ess ->
    concat ess = map (fun i => Entry (lit "up") [(lit "host", host i)] 1 (Z.max 0 (Z.quot (t i) 1000000))) (seq 0 n).
  Proof.
    generalize 0%nat as s. induction n as [|n IH]; intros s ess F; cbn [seq map] in *; inversion F as [|? ? ? ? R F']; subst; auto.
    cbn [concat]. rewrite (IH _ _ F'). cbn [reported one] in R. destruct R as (ls & O1 & ->). apply one_labels in O1. subst. auto.
  Qed.

  Lemma newlines_concat (es : list entry) :
    (length es <= count_occ ascii_dec (concat (map (fun e => served_line (e_name e) (e_labels e) (e_value e) (e_ms e) ++ [nl]) es)) nl)%nat.
  Proof.
    induction es as [|e es IH]; cbn [map concat length]; auto. rewrite !count_occ_app. cbn [count_occ].
    destruct (ascii_dec nl nl); [lia|congruence].
  Qed.

  (** Hosts that reported once, however long ago, are served for ever. *)
  Lemma mon_grows t n : (forall i, (i < n)%nat -> int64 (t i)) -> exists set outs answer,
    mon_run gs [] (map (devent_event gs) (once_each t n ++ [inr tt])) = Some (set, outs ++ [answer]) /\
    (n <= count_occ ascii_dec answer nl)%nat.
  Proof.
    intros T. destruct (deployment_right gs Hs (once_each t n)) as (set & outs & answer & ess & R & F & A).
    { intros r o I. apply in_map_iff in I. destruct I as (i & X & I). inversion X; subst. apply in_seq in I.
      split; [apply one_ok; apply T; lia|auto]. }
    exists set, outs, answer. split; auto.
    assert (Em : flat_map (fun e : report * (list metric -> list metric) + unit => match e with inl (r, _) => [r] | inr _ => [] end) (once_each t n)
                 = map (one t) (seq 0 n)).
    { unfold once_each. clear. induction (seq 0 n) as [|i l IH]; cbn [map flat_map app]; [auto|]. f_equal. auto. }
    rewrite Em in F. apply once_entries in F. rewrite F in A.
    destruct A as (served & -> & _ & _ & W). eapply Nat.le_trans; [|apply newlines_concat].
    set (want := map (fun i => Entry (lit "up") [(lit "host", host i)] 1 (Z.max 0 (Z.quot (t i) 1000000))) (seq 0 n)) in *.
    replace n with (length want) by (unfold want; rewrite map_length, seq_length; auto).
    assert (HI : forall i j, host i = host j -> i = j).
    { intros i j E. apply (f_equal (@length ascii)) in E. unfold host in E. rewrite !repeat_length in E. auto. }
    apply NoDup_incl_length.
    - unfold want. apply FinFun.Injective_map_NoDup; [|apply seq_NoDup]. intros i j E. apply HI. apply (f_equal e_labels) in E. cbn [e_labels] in E. congruence.
    - intros e I. unfold want in I. apply in_map_iff in I. destruct I as (i & <- & I).
      assert (Il : increasing [(lit "host", host i)]).
      { intros a b x y L Ha Hb. destruct a as [|[|a]], b as [|[|b]]; cbn [nth_error] in *; try discriminate; lia. }
      apply W; auto. apply in_split in I. destruct I as (l1 & l2 & E). unfold want. rewrite E.
      exists (map (fun i => Entry (lit "up") [(lit "host", host i)] 1 (Z.max 0 (Z.quot (t i) 1000000))) l1), (Entry (lit "up") [(lit "host", host i)] 1 (Z.max 0 (Z.quot (t i) 1000000))),
        (map (fun i => Entry (lit "up") [(lit "host", host i)] 1 (Z.max 0 (Z.quot (t i) 1000000))) l2).
      rewrite map_app. cbn [map e_name e_labels e_value e_ms]. repeat (split; [reflexivity|]).
      apply Forall_forall. intros e' I' [_ P]. apply in_map_iff in I'. destruct I' as (j & <- & Ij). cbn [e_labels] in P.
      apply Permutation_length_1 in P. inversion P as [X]. apply HI in X. subst j.
      pose proof (seq_NoDup n 0) as ND. rewrite E in ND. apply NoDup_remove_2 in ND. apply ND. apply in_app_iff. auto.
  Qed.
End Keep.
