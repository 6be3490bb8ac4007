(** C50: what is served whatever the order of the labels. *)
From Verif Require Import Base RulesSpec RulesProofs Prom PromSpec PromParse PromMonitor PromTop PromStats PromDamage.
Local Open Scope nat_scope.

(** Every answer (labels having distinct names): one line per metric, in the order of their identities, each with the right name, value,
    time and number of labels; and with the right labels if they came in order or if the metric was reported since the last GET. *)
Theorem C50_every_answer_partial : forall gs, sorts gs -> forall evs es set outs answer, accepted evs es -> orders_ok evs ->
  mon_run gs [] (evs ++ [EGet]) = Some (set, outs ++ [answer]) ->
  Forall (fun e => NoDup (map fst (e_labels e))) es -> answered evs es answer.
Proof. exact answer_answered. Qed.
Print Assumptions C50_every_answer_partial.

(** So an answer in which every metric is unharmed is the right one. *)
Theorem C50_unharmed_partial : forall evs es answer, answered evs es answer ->
  (forall e, latest es (e_name e) (e_labels e) (e_value e) (e_ms e) -> unharmed evs es e) -> right_answer es answer.
Proof.
  intros evs es answer (served & Ea & Ei & Fs & Fl) U. exists (map fst served).
  assert (Q : forall s, In s served -> snd s = e_labels (fst s)).
  { intros s Hs. rewrite Forall_forall in Fs. destruct (Fs s Hs) as (Inc & _ & H). apply H. apply U.
    destruct (fst s) as [n l v ms] eqn:E. cbn [e_name e_labels e_value e_ms] in *. apply Fl; [exact Inc|]. rewrite <- E. apply in_map. exact Hs. }
  split; [|split; [|split]].
  - rewrite Ea, map_map. f_equal. apply map_ext_in. intros s Hs. rewrite (Q s Hs). reflexivity.
  - intros i j a b L Ha Hb. rewrite nth_error_map in Ha, Hb.
    destruct (nth_error served i) as [x|] eqn:Ex; [|discriminate]. destruct (nth_error served j) as [y|] eqn:Ey; [|discriminate].
    cbn in Ha, Hb. injection Ha as <-. injection Hb as <-. eapply Ei; eauto.
  - apply Forall_forall. intros e He. apply in_map_iff in He. destruct He as (s & <- & Hs). rewrite Forall_forall in Fs. apply (Fs s Hs).
  - exact Fl.
Qed.
Print Assumptions C50_unharmed_partial.

(** The unsorted metric of C50_refuted: served right, served wrong, and right again once it was reported anew; the other line is right throughout. *)
Definition damage_history : list mevent :=
  [EMsg (unsorted_message ++ [nl] ++ lit "u{a=""1"",b=""2""} 5") (fun l => l); EGet; EGet; EMsg unsorted_message (fun l => l)].
Example C50_damage_case : exists set a1 a2,
  mon_run (@isort) [] (damage_history ++ [EGet]) = Some (set, [a1; a2; a1]) /\
  a1 = lit "t{a=""22"",bb=""1""} 7" ++ [nl] ++ lit "u{a=""1"",b=""2""} 5" ++ [nl] /\
  a2 = lit "t{a==""2"",b=""""1""} 7" ++ [nl] ++ lit "u{a=""1"",b=""2""} 5" ++ [nl].
Proof. eexists. eexists. eexists. vm_compute. split; [reflexivity|split; reflexivity]. Qed.
(** The hypotheses are met by a history with an unsorted metric, which is unharmed because it was reported again after the GETs. *)
Example C50_damage_unharmed :
  let t := Entry (lit "t") [(lit "bb", lit "1"); (lit "a", lit "22")] 7 0 in let m := EMsg unsorted_message (fun l => l) in
  accepted [m; EGet; EGet; m] [t; t] /\ orders_ok [m; EGet; EGet; m] /\ Forall (fun e => NoDup (map fst (e_labels e))) [t; t] /\
  ~ increasing (e_labels t) /\
  unharmed [m; EGet; EGet; m] [t; t] (Entry (lit "t") [(lit "a", lit "22"); (lit "bb", lit "1")] 7 0).
Proof.
  cbv zeta. set (t := Entry (lit "t") [(lit "bb", lit "1"); (lit "a", lit "22")] 7 0). set (m := EMsg unsorted_message (fun l => l)).
  assert (A1 : accepted [m] [t]) by (apply (acc_valid [] [] unsorted_message (fun l => l)); [constructor|apply unsorted_says]).
  assert (A3 : accepted [m; EGet; EGet] [t]) by (apply (acc_get [m; EGet]); apply (acc_get [m]); exact A1).
  split; [apply (acc_valid [m; EGet; EGet] [t] unsorted_message (fun l => l)); [exact A3|apply unsorted_says]|].
  split; [intros d o H l; cbn in H; destruct H as [H|[H|[H|[H|[]]]]]; try discriminate H; injection H as _ <-; apply Permutation_refl|].
  split; [|split].
  - assert (N : NoDup (map fst (e_labels t))) by (cbn; repeat constructor; cbn; intuition discriminate). constructor; [exact N|constructor; [exact N|constructor]].
  - intros H. specialize (H 0 1 _ _ (Nat.lt_0_succ 0) eq_refl eq_refl). vm_compute in H. discriminate H.
  - exists [t], t, []. split; [reflexivity|]. split; [reflexivity|]. split; [apply perm_swap|]. split; [constructor|]. right.
    exists [m; EGet; EGet], [m], [t]. split; [reflexivity|]. split; [exact A3|]. split; [intros [H|[]]; discriminate H|cbn; lia].
Qed.
