(** Stopping the filter: executions without new messages are finite, and end with every worker gone. *)
From Verif Require Import Base Text Timestamps Rules RulesSpec LinesSpec FilterWorker FilterSpec FilterProofs.
Local Open Scope nat_scope.

Definition no_receive (l : flabel) : Prop := match l with LReceive _ => False | _ => True end.

Section Stop.
  Variable gs : forall A : Type, (A -> A -> bool) -> list A -> list A.
  Variable c : fcfg.

  Lemma processLine_len st line : length (snd (processLine gs c st line)) <= 2.
  Proof. unfold processLine. destruct (newParsedLine line); [|simpl; lia]. destruct (LookupParsed _ _); simpl; lia. Qed.

  Lemma process_lines_len now lo hi : forall ls st, length (snd (process_lines gs c now lo hi st ls)) <= 3 * length ls.
  Proof.
    induction ls as [|line ls IH]; intros st; cbn [process_lines]; [simpl; lia|].
    destruct line as [|ch line]; [specialize (IH st); simpl in *; lia|].
    set (L := ch :: line).
    assert (X : length (snd (if ((lo <? filterTimestamp L now) && (filterTimestamp L now <? hi))%Z
        then processLine gs c st L else (st, [AInc FInvalidTime]))) <= 2).
    { destruct (_ && _)%bool; [apply processLine_len|simpl; lia]. }
    destruct (if ((lo <? _) && _)%Z then _ else _) as [st1 a1]. specialize (IH st1).
    destruct (process_lines gs c now lo hi st1 ls) as [st2 a2]. cbn [snd length] in *. rewrite app_length. lia.
  Qed.

  Lemma send_rules_len oks : forall ss bs k, length (snd (fst (send_rules oks k ss bs))) <= 2 * length ss.
  Proof.
    induction ss as [|s ss IH]; intros [|b bs] k; cbn [send_rules]; try (simpl; lia).
    destruct b as [|ch b].
    - specialize (IH bs k). destruct (send_rules oks k ss bs) as [[bs' a] k']. simpl in *. lia.
    - specialize (IH bs (S k)). destruct (send_rules oks (S k) ss bs) as [[bs' a] k']. cbn [fst snd] in *.
      rewrite app_length. unfold publish. cbn [length]. destruct (oks k); cbn [length]; lia.
  Qed.

  Lemma sendOff_len oks st : length (snd (sendOff c oks st)) <= 2 * length (fc_rules c) + 2.
  Proof.
    unfold sendOff. pose proof (send_rules_len oks (Subjects (fc_rules c)) (f_batches st) 0) as H.
    unfold Subjects in H at 2. rewrite map_length in H.
    destruct (send_rules oks 0 (Subjects (fc_rules c)) (f_batches st)) as [[bs a] k]. cbn [fst snd] in H.
    destruct (f_junk st); cbn [snd]; [lia|]. rewrite app_length. unfold publish. destruct (oks k); cbn [length]; lia.
  Qed.

  Lemma SplitAfter_len b : length (SplitAfter b) <= S (length b).
  Proof.
    induction b as [|ch b IH]; cbn [SplitAfter]; [simpl; lia|].
    destruct (Ascii.eqb ch nl); [simpl in *; lia|]. destruct (SplitAfter b); simpl in *; lia.
  Qed.

  (** A bound on the steps a message takes. *)
  Definition cost (m : bytes) : nat := 3 * S (length m) + 2 * length (fc_rules c) + 4.

  Lemma processBatch_len oks now st m : length (snd (processBatch gs c oks now st m)) + 2 <= cost m.
  Proof.
    unfold processBatch. cbn zeta. 
    pose proof (process_lines_len now (wrap64 (now - fc_delta c)) (wrap64 (now + fc_delta c)) (SplitAfter m) st) as P.
    destruct (process_lines _ _ _ _ _ _ _) as [st1 a1]. pose proof (sendOff_len oks st1) as Q.
    destruct (sendOff c oks st1) as [st2 a2]. cbn [snd] in *. rewrite app_length. pose proof (SplitAfter_len m). unfold cost. lia.
  Qed.

  Definition wcost (w : wstate) : nat := match w with WIdle _ => 1 | WBusy _ t => length t + 2 | WExited => 0 end.
  Definition mu (s : fsys) : nat :=
    list_sum (map cost (s_jobs s)) + list_sum (map wcost (s_workers s)) + (if s_stop s then 0 else 1).

  Lemma wcost_set ws w x y : nth_error ws w = Some y ->
    list_sum (map wcost (FilterWorker.set_nth ws w x)) + wcost y = list_sum (map wcost ws) + wcost x.
  Proof.
    intros H. destruct (set_nth_split ws w x y H) as (l1 & l2 & -> & E & _). rewrite E, !map_app, !list_sum_app.
    cbn [map list_sum fold_right]. lia.
  Qed.

  Lemma mu_step s l s' : fstep gs c s l s' -> no_receive l -> mu s' < mu s.
  Proof.
    intros St N. inversion St as [q ws d st m Hc|q ws d st w f oks now m f' acts Hw Hp|q ws d st w f a todo Hw
      |q ws d st w f Hw|q ws d|q ws d w f Hw]; subst; unfold mu; cbn [s_jobs s_workers s_stop] in *; try contradiction.
    - pose proof (wcost_set ws w (WBusy f' acts) _ Hw) as X. pose proof (processBatch_len oks now f m) as Y. rewrite Hp in Y.
      change (list_sum (map cost (m :: q))) with (cost m + list_sum (map cost q)).
      cbn [snd] in Y. cbn [wcost] in X. lia.
    - pose proof (wcost_set ws w (WBusy f todo) _ Hw) as X. cbn [wcost length] in X. lia.
    - pose proof (wcost_set ws w (WIdle f) _ Hw) as X. cbn [wcost length] in X. lia.
    - lia.
    - pose proof (wcost_set ws w WExited _ Hw) as X. cbn [wcost length] in X. lia.
  Qed.

  Lemma mu_exec s ls s' : fexec gs c s ls s' -> Forall no_receive ls -> length ls + mu s' <= mu s.
  Proof.
    induction 1 as [s|s l s1 ls s2 H IH St]; intros F; [simpl; lia|].
    apply Forall_app in F. destruct F as [F1 F2]. inversion F2 as [|? ? Fl _]; subst.
    specialize (IH F1). pose proof (mu_step _ _ _ St Fl). rewrite app_length. cbn [length]. lia.
  Qed.

  Lemma stop_stays s ls s' : fexec gs c s ls s' -> s_stop s = true -> s_stop s' = true.
  Proof.
    induction 1 as [s|s l s1 ls s2 H IH St]; auto. intros E. specialize (IH E). inversion St; subst; cbn in *; auto.
  Qed.

  Lemma stuck_exited s : s_stop s = true -> (forall l s', fstep gs c s l s' -> ~ no_receive l) -> Forall (fun w => w = WExited) (s_workers s).
  Proof.
    intros E N. destruct s as [q ws d st]. cbn [s_stop s_workers] in *. subst st.
    apply Forall_forall. intros x I. apply In_nth_error in I. destruct I as [w Hw].
    destruct x as [f|f [|a t]|]; auto; exfalso.
    - eapply (N (LExit w)); [eapply fs_exit; eauto|exact Logic.I].
    - eapply (N (LDone w)); [eapply fs_done; eauto|exact Logic.I].
    - eapply (N (LAct w a)); [eapply fs_act; eauto|exact Logic.I].
  Qed.

  Lemma stop_terminates n ls s : fexec gs c (startFilter c n) ls s -> s_stop s = true ->
    exists bound, forall ls' s', fexec gs c s ls' s' -> Forall no_receive ls' ->
      length ls' <= bound /\
      ((forall l s2, fstep gs c s' l s2 -> ~ no_receive l) -> Forall (fun w => w = WExited) (s_workers s')).
  Proof.
    intros _ E. exists (mu s). intros ls' s' X F. split.
    - pose proof (mu_exec _ _ _ X F). lia.
    - intros N. apply stuck_exited; auto. eapply stop_stays; eauto.
  Qed.

  Lemma exited_todo ws : Forall (fun w => w = WExited) ws -> flat_map todo_of ws = [].
  Proof. induction 1; simpl; auto. subst. auto. Qed.

  Lemma stopped_whole n ls s : fexec gs c (startFilter c n) ls s -> Forall (fun w => w = WExited) (s_workers s) ->
    exists lost, received ls = map (fun j : job => snd j) (taken ls) ++ lost /\ length lost <= 1024 /\
      Permutation (published (performed ls))
        (flat_map (fun j : job => let '(oks, now, m) := j in published (snd (processBatch gs c oks now (newFilterWorker c) m))) (taken ls)).
  Proof.
    intros H W. destruct (pool_moment gs c n ls s H) as (A & B & _ & Q).
    exists (s_jobs s). split; auto. split; auto.
    rewrite (exited_todo _ W), app_nil_r in B. apply perm_published in B. rewrite published_flat in B.
    eapply perm_trans; [exact B|]. erewrite flat_map_ext; [apply Permutation_refl|]. intros [[oks now] m]. auto.
  Qed.
End Stop.
