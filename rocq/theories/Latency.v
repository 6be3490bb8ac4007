(** How long data can stay in a component: a listener sends what is older than batch_max_age at each of its checks, a writer
    posts it at each of its wake-ups, and a filter that is not busy holds nothing.

    No new part of the code is modelled here: the statements are about histories of Listener.v (listener/listener.go:186-215,
    229-247), FilterWorker.v (filter/worker.go) and Writer.v (writer/writer.go:155-200). *)
From Verif Require Import Base LinesSpec Text Rules RulesSpec FilterWorker FilterSpec FilterProofs BatchSpec Batch BatchProofs Listener ListenerSpec ListenerProofs Retry RetrySpec RetryMain Splitter SplitterProofs HttpProofs
  Writer WriterSpec WriterTop EndToEnd EndToEndProofs Crash.
Local Open Scope Z_scope.

(** ** Specification *)

(** A worker of a writer that, when it last woke up, had only messages at least batch_max_age old. *)
Definition matured (w : wworker) : Prop :=
  w_pc (ww_state w) = Writer.WIdle /\ 1 <= wc_count (ww_cfg w) /\
  (messages (ww_trace w) = [] \/
   exists tw, last_wake (ww_trace w) tw /\ Forall (fun m => fst m <= tw - wc_age (ww_cfg w)) (messages (ww_trace w))).

(** The lines POSTed to InfluxDB. *)
Definition posted_lines (ws : list wworker) : list bytes := flat_map (fun w => flat_map lines_of (bodies (ww_trace w))) ws.

(** ** Two ways to cut a list *)
Lemma cut_prefix {A} (a b c d : list A) : a ++ b = c ++ d -> (length a <= length c)%nat -> exists e, c = a ++ e.
Proof.
  intros E L. exists (skipn (length a) c).
  assert (F : firstn (length a) c = a).
  { transitivity (firstn (length a) (c ++ d)).
    - rewrite firstn_app. replace (length a - length c)%nat with 0%nat by lia. cbn [firstn]. rewrite app_nil_r. reflexivity.
    - rewrite <- E. rewrite firstn_app, Nat.sub_diag. cbn [firstn]. rewrite app_nil_r. apply firstn_all. }
  rewrite <- F at 1. symmetry. apply firstn_skipn.
Qed.
Lemma cut_in {A} (a b c d : list A) x : a ++ b = c ++ x :: d -> (length c < length a)%nat -> In x a.
Proof.
  intros E L. destruct (cut_prefix c (x :: d) a b (eq_sym E)) as (e & ->); [lia|].
  rewrite <- app_assoc in E. apply app_inv_head in E. destruct e as [|y e].
  - rewrite app_nil_r in L. lia.
  - cbn [app] in E. injection E as -> _. apply in_app_iff. right. left. reflexivity.
Qed.

(** ** The UDP listener *)
Lemma arrived_app a b : arrived (a ++ b) = arrived a ++ arrived b.
Proof.
  unfold arrived. rewrite map_app.
  assert (E : forall (p : bytes -> bool) x y, filter p (x ++ y) = filter p x ++ filter p y) by (intros p x y; induction x as [|z x IH]; [reflexivity|cbn [app filter]; destruct (p z); cbn [app]; rewrite IH; reflexivity]).
  rewrite E, map_app. reflexivity.
Qed.

Lemma sp_split c us : let p := sp_run c us in exists ua ub, us = ua ++ ub /\ arrived ua = concat (sp_groups p) /\ arrived ub = sp_pend p /\
  (sp_pend p <> [] -> exists ux u', ub = ux :: u' /\ sp_first p = u_t1 ux).
Proof.
  induction us as [|u us IH] using rev_ind; cbv zeta.
  - exists [], []. repeat split; auto. intros H. destruct (H eq_refl).
  - unfold sp_run. rewrite fold_left_app. cbn [fold_left]. fold (sp_run c us). set (p := sp_run c us) in *.
    destruct IH as (ua & ub & E & Ga & Gp & F). unfold sp_step.
    set (first := match sp_pend p with [] => u_t1 u | _ => sp_first p end).
    assert (Split : sp_pend p = [] -> arrived ua = concat (sp_groups p) /\ arrived ub = []) by (intros H; split; congruence).
    destruct (sp_pend p ++ arrived [u]) as [|x pd] eqn:Ep.
    + apply app_eq_nil in Ep. destruct Ep as [E1 E2]. exists (us ++ [u]), []. cbn [sp_groups sp_pend sp_first].
      rewrite app_nil_r. split; [reflexivity|]. split; [|split; [reflexivity|intros H; destruct (H eq_refl)]].
      rewrite E, !arrived_app, E2, Gp, E1, !app_nil_r. exact Ga.
    + destruct (limit_reachedb c (x :: pd) first (u_t2 u)); cbn [sp_groups sp_pend sp_first].
      * exists (us ++ [u]), []. rewrite app_nil_r. split; [reflexivity|]. split; [|split; [reflexivity|intros H; destruct (H eq_refl)]].
        rewrite E, !arrived_app, Ga, Gp, concat_app, <- app_assoc, Ep. cbn [concat]. rewrite app_nil_r. reflexivity.
      * unfold first. destruct (sp_pend p) as [|y pp] eqn:Ey.
        -- exists us, [u]. split; [reflexivity|]. split; [rewrite E, arrived_app, Gp, app_nil_r; exact Ga|].
           split; [exact Ep|]. intros _. exists u, []. auto.
        -- destruct F as (ux & u' & -> & F); [discriminate|]. exists ua, ((ux :: u') ++ [u]).
           split; [rewrite E, <- app_assoc; reflexivity|]. split; [exact Ga|]. split; [rewrite arrived_app, Gp; exact Ep|].
           intros _. exists ux, (u' ++ [u]). auto.
Qed.

Lemma sp_young c us u : sp_pend (sp_run c (us ++ [u])) <> [] -> u_t2 u - sp_first (sp_run c (us ++ [u])) < lc_max_age c.
Proof.
  unfold sp_run. rewrite fold_left_app. cbn [fold_left]. fold (sp_run c us). set (p := sp_run c us). unfold sp_step.
  destruct (sp_pend p ++ arrived [u]) as [|x pd]; [intros H; destruct (H eq_refl)|].
  match goal with |- context [limit_reachedb ?a ?b ?d ?e] => destruct (limit_reachedb a b d e) eqn:L end; cbn [sp_pend sp_first]; [intros H; destruct (H eq_refl)|].
  intros _. unfold limit_reachedb in L. apply orb_false_elim in L. destruct L as [L _]. apply orb_false_elim in L. destruct L as [_ L]. lia.
Qed.

Lemma udp_latency pf c now us1 us2 us u : 0 <= lc_max_size c <= 1048576 -> Forall (fun u => Z.of_nat (length (u_data u)) <= 65536) (us ++ [u]) ->
  us ++ [u] = us1 ++ us2 -> Forall (fun v => u_t1 v <= u_t2 u - lc_max_age c) us1 ->
  exists rest, flat_map lines_of (ls_pub (udp_run pf c (newListener c now) (us ++ [u]))) = sent_lines us1 ++ rest.
Proof.
  intros Hc Hu E1 Old. assert (Hc0 : 0 <= lc_max_size c) by lia.
  destruct (udp_reference pf c now (us ++ [u]) Hc0 Hu) as (Rp & Rb & Rw). cbv zeta in *.
  destruct (udp_messages pf c now (us ++ [u]) Hc Hu) as (_ & _ & _ & _ & _ & _ & F).
  destruct (sp_split c (us ++ [u])) as (ua & ub & E & Ga & Gp & Fi).
  assert (Pl : flat_map lines_of (ls_pub (udp_run pf c (newListener c now) (us ++ [u]))) = sent_lines ua).
  { unfold sent_lines. rewrite Ga. set (gr := sp_groups (sp_run c (us ++ [u]))) in *.
    pose proof (arrived_ended ua) as A1. rewrite Ga in A1. rewrite <- (lines_of_concat_ended (concat gr) A1).
    pose proof (flat_split_concat gr) as Fs. unfold bytes in Fs. unfold bytes. rewrite <- Fs. unfold bytes in Rp. rewrite <- Rp.
    symmetry. apply lines_of_concat_ended. apply Forall_forall. intros m Hm. rewrite Forall_forall in F. destruct (F m Hm) as (_ & _ & p & ->). right. eauto. }
  rewrite Pl. unfold sent_lines. destruct (sp_pend (sp_run c (us ++ [u]))) as [|x pd] eqn:Ep.
  - exists (flat_map lines_of (arrived us2)). rewrite <- flat_map_app, <- arrived_app, <- E1, E, arrived_app, Gp, app_nil_r. reflexivity.
  - destruct Fi as (ux & u' & -> & Fi); [discriminate|]. pose proof (sp_young c us u) as Y. rewrite Ep, Fi in Y. specialize (Y ltac:(discriminate)).
    destruct (le_lt_dec (length us1) (length ua)) as [L|L].
    + rewrite E in E1. destruct (cut_prefix us1 us2 ua (ux :: u') (eq_sym E1) L) as (e & ->). exists (flat_map lines_of (arrived e)).
      rewrite arrived_app, flat_map_app. reflexivity.
    + exfalso. rewrite E in E1. pose proof (cut_in us1 us2 ua u' ux (eq_sym E1) L) as H. rewrite Forall_forall in Old. specialize (Old ux H). lia.
Qed.

(** ** The writer *)
Lemma last_wake_unique tr a b : last_wake tr a -> last_wake tr b -> a = b.
Proof.
  intros (l1 & l2 & E & N) (m1 & m2 & E' & N'). destruct (lt_eq_lt_dec (length l1) (length m1)) as [[L|L]|L].
  - exfalso. rewrite E in E'. destruct (cut_prefix l1 (VWake a :: l2) m1 (VWake b :: m2) E') as (e & ->); [lia|]. rewrite <- app_assoc in E'. apply app_inv_head in E'.
    destruct e as [|y e]; [rewrite app_nil_r in L; lia|]. cbn [app] in E'. injection E' as _ E'. apply (N b). rewrite E'. apply in_app_iff. right. left. reflexivity.
  - assert (X : VWake a :: l2 = VWake b :: m2). { rewrite E in E'. destruct (cut_prefix l1 _ m1 _ E') as (e & He); [lia|].
      assert (e = []) by (destruct e; [reflexivity|rewrite He, app_length in L; cbn [length] in L; lia]). subst e. rewrite app_nil_r in He. subst m1. apply app_inv_head in E'. exact E'. }
    congruence.
  - exfalso. rewrite E' in E. destruct (cut_prefix m1 (VWake b :: m2) l1 (VWake a :: l2) E) as (e & ->); [lia|]. rewrite <- app_assoc in E. apply app_inv_head in E.
    destruct e as [|y e]; [rewrite app_nil_r in L; lia|]. cbn [app] in E. injection E as _ E. apply (N' a). rewrite E. apply in_app_iff. right. left. reflexivity.
Qed.

Lemma after_send_suffix tr : exists l, tr = l ++ after_send tr.
Proof.
  induction tr as [|o tr (l & IH)]; [exists []; reflexivity|]. cbn [after_send]. destruct (existsb is_send tr).
  - exists (o :: l). cbn [app]. rewrite <- IH. reflexivity.
  - destruct (is_send o); [exists [o]; reflexivity|exists []; reflexivity].
Qed.

Lemma timed_app rs a b : timed_writes rs (a ++ b) = timed_writes rs a ++ timed_writes rs b.
Proof. unfold timed_writes, messages. rewrite !flat_map_app. reflexivity. Qed.

Definition timed_of (rs : list rule) (ms : list (Z * bytes)) : list (Z * bytes) := flat_map (fun m => map (fun d => (fst m, d)) (writes_of rs (snd m))) ms.
Lemma timed_data rs ms : concat (map snd (timed_of rs ms)) = concat (map (fun m => accepted rs (snd m)) ms).
Proof.
  induction ms as [|[t d] ms IH]; [reflexivity|]. cbn [timed_of flat_map map concat fst snd]. rewrite map_app, concat_app. fold (timed_of rs ms). rewrite IH. f_equal.
  rewrite map_map. cbn [snd]. rewrite map_id. reflexivity.
Qed.

Lemma writer_latency c cap now ls s tr tw ms1 ms2 : (1 <= wc_size c)%nat -> 0 <= cap -> 1 <= wc_count c ->
  wrun c (newWorker cap now) ls = Some (s, tr) -> w_pc s = Writer.WIdle -> last_wake tr tw ->
  messages tr = ms1 ++ ms2 -> Forall (fun m => fst m <= tw - wc_age c) ms1 ->
  exists rest, concat (bodies tr) = concat (map (fun m => accepted (wc_rules c) (snd m)) ms1) ++ rest.
Proof.
  intros Hs Hc Hn Hr Hp Hw Em Old. destruct (pair_data c Hs _ _ _ _ _ Hc Hr) as (D & _ & _).
  pose proof (pending_bound c Hs cap now ls s tr Hc Hn Hr Hp) as B. cbv zeta in B.
  destruct (after_send_suffix tr) as (l & El). set (rs := wc_rules c) in *. set (pw := timed_writes rs (after_send tr)) in *.
  assert (Et : timed_writes rs tr = timed_writes rs l ++ pw) by (rewrite El at 1; apply timed_app).
  assert (E1 : timed_writes rs tr = timed_of rs ms1 ++ timed_of rs ms2) by (unfold timed_writes; rewrite Em; apply flat_map_app).
  destruct B as [Bh B].
  assert (Eb : concat (bodies tr) = concat (map snd (timed_writes rs l))).
  { apply (app_inv_tail (held s)). rewrite D, Bh, <- concat_app, <- map_app, <- Et. unfold input. symmetry. apply (timed_data rs (messages tr)). }
  rewrite Eb, <- timed_data. rewrite Et in E1.
  assert (X : exists e, timed_writes rs l = timed_of rs ms1 ++ e).
  { destruct (le_lt_dec (length (timed_of rs ms1)) (length (timed_writes rs l))) as [L|L]; [exact (cut_prefix _ _ _ _ (eq_sym E1) L)|exfalso].
    destruct pw as [|[t0 d0] pw'] eqn:Ep.
    - rewrite app_nil_r in E1. rewrite E1, app_length in L. lia.
    - pose proof (cut_in _ _ _ _ _ (eq_sym E1) L) as Hi. destruct B as [B|(_ & _ & tw' & Hw' & Y)]; [discriminate B|].
      rewrite (last_wake_unique _ _ _ Hw' Hw) in Y. specialize (Y t0 d0 pw' eq_refl).
      unfold timed_of in Hi. apply in_flat_map in Hi. destruct Hi as (m & Hm & Hi). apply in_map_iff in Hi. destruct Hi as (d & Ed & _). injection Ed as Ed _.
      rewrite Forall_forall in Old. specialize (Old m Hm). lia. }
  destruct X as (e & ->). exists (concat (map snd e)). rewrite map_app, concat_app. reflexivity.
Qed.

Lemma matured_held w : ww_ok w -> matured w -> held (ww_state w) = [].
Proof.
  intros (Hs & Hc & Hr) (Hp & Hn & M). destruct (pair_data _ Hs _ _ _ _ _ Hc Hr) as (D & _ & _).
  apply length_zero_iff_nil.
  assert (L : (length (concat (bodies (ww_trace w))) = length (concat (bodies (ww_trace w)) ++ held (ww_state w)))%nat -> length (held (ww_state w)) = 0%nat) by (rewrite app_length; lia).
  apply L. clear L. destruct M as [M|(tw & Hw & Old)].
  - assert (X : concat (bodies (ww_trace w)) ++ held (ww_state w) = []) by (rewrite D; unfold input; rewrite M; reflexivity). rewrite X. apply app_eq_nil in X. destruct X as [-> _]. reflexivity.
  - destruct (writer_latency _ _ _ _ _ _ tw (messages (ww_trace w)) [] Hs Hc Hn Hr Hp Hw) as (rest & E); [rewrite app_nil_r; reflexivity|exact Old|].
    change (concat (map (fun m => accepted (wc_rules (ww_cfg w)) (snd m)) (messages (ww_trace w)))) with (input (wc_rules (ww_cfg w)) (ww_trace w)) in E.
    pose proof (f_equal (@length _) D) as LD. pose proof (f_equal (@length _) E) as LE. rewrite app_length in LD, LE. rewrite app_length. lia.
Qed.

(** ** The pipeline *)
Lemma pipeline_latency gs lc pf t0 us u us1 us2 c n fl s subs ws :
  sorts gs -> 0 <= lc_max_size lc <= 1048576 -> Forall (fun u => Z.of_nat (length (u_data u)) <= 65536) (us ++ [u]) ->
  us ++ [u] = us1 ++ us2 -> Forall (fun v => u_t1 v <= u_t2 u - lc_max_age lc) us1 ->
  Permutation (received fl) (ls_pub (udp_run pf lc (newListener lc t0) (us ++ [u]))) ->
  fexec gs c (startFilter c n) fl s -> quiet s -> Forall (time_ok c) (taken fl) -> count_publish_failures (performed fl) = 0%nat ->
  Forall (sound_line c) (sent_lines (us ++ [u])) ->
  Forall plain_writer ws -> delivered_to subs fl ws -> Forall matured ws ->
  exists outs, part (sent_lines us1) (map snd (handled fl)) /\
    Forall2 (fun h o => forwarded c subs (fst h) (snd h) o) (handled fl) outs /\ Permutation (posted_lines ws) (concat outs).
Proof.
  intros GS Hc Hu E1 Old Rc X Q T Nf So W D M.
  destruct (udp_latency pf lc t0 us1 us2 us u Hc Hu E1 Old) as (rest & El).
  assert (Mm : udp_moment (sent_lines (us ++ [u]), ls_pub (udp_run pf lc (newListener lc t0) (us ++ [u])))) by (exists lc, (us ++ [u]), pf, t0; auto).
  destruct (moment_lines _ Mm) as [Ml Me]. cbn [fst snd] in Ml, Me. set (msgs := ls_pub _) in *.
  destruct (pool_quiet gs c n fl s X Q) as (Rq & _).
  assert (Hl : map snd (handled fl) = flat_map lines_of (received fl)) by (rewrite handled_lines, <- Rq; reflexivity).
  assert (Rb : Forall (ready_batch c) (taken fl)).
  { apply Forall_forall. intros j Hj. assert (Hm : In (snd j) (received fl)) by (rewrite Rq; apply in_map_iff; exists j; auto).
    rewrite Forall_forall in T, Me, So. split; [auto|]. split.
    - apply Me. eapply Permutation_in; eauto.
    - apply Forall_forall. intros x Hx. apply So. eapply part_in; [exact Ml|]. apply in_flat_map. exists (snd j). split; [eapply Permutation_in; eauto|exact Hx]. }
  destruct (filter_lines gs c n fl s subs GS X Q Rb Nf) as (outss & F & P). exists (concat outss). split; [|split; [apply handled_outs; exact F|]].
  - rewrite Hl. exists rest. rewrite <- El. symmetry. apply Permutation_flat_map. exact Rc.
  - eapply perm_trans; [|exact P]. eapply perm_trans; [|apply writers_lines; eauto; eapply filter_ended; eauto].
    unfold posted_lines, in_writer. clear - W M. induction W as [|w ws (Ok & _) W IH]; [apply perm_nil|]. inversion M; subst. cbn [flat_map].
    rewrite (matured_held w Ok) by auto. cbn [lines_of]. rewrite app_nil_r. apply Permutation_app_head. auto.
Qed.

(** ** The HTTP listener *)

(** What one step does to the batch and to what was published. *)
Inductive moved (l l' : lstate) (t : Z) : Prop :=
| mv_same : ls_pub l' = ls_pub l -> b_buf (ls_batch l') = b_buf (ls_batch l) -> b_writes (ls_batch l') = b_writes (ls_batch l) ->
    (0 < b_writes (ls_batch l) -> b_created (ls_batch l') = b_created (ls_batch l)) -> moved l l' t
| mv_add d : ls_pub l' = ls_pub l -> b_buf (ls_batch l') = b_buf (ls_batch l) ++ d -> b_writes (ls_batch l') = b_writes (ls_batch l) + 1 ->
    b_created (ls_batch l') = (if b_writes (ls_batch l) =? 0 then t else b_created (ls_batch l)) -> moved l l' t
| mv_send : concat (ls_pub l') = concat (ls_pub l) ++ b_buf (ls_batch l) -> b_buf (ls_batch l') = [] -> b_writes (ls_batch l') = 0 -> moved l l' t.

Lemma send_moved pf l t : Inv (ls_batch l) -> ls_failed l = fails pf (length (ls_pub l)) -> (b_writes (ls_batch l) = 0 <-> b_buf (ls_batch l) = []) ->
  b_buf (ls_batch (sendBatch pf l t)) = [] /\ b_writes (ls_batch (sendBatch pf l t)) = 0 /\ concat (ls_pub (sendBatch pf l t)) = concat (ls_pub l) ++ b_buf (ls_batch l).
Proof.
  intros I0 F W. destruct (list_eq_dec ascii_dec (b_buf (ls_batch l)) []) as [E|E].
  - rewrite sendBatch_empty by exact E. rewrite E, app_nil_r. split; [reflexivity|]. split; [apply W; exact E|reflexivity].
  - destruct (sendBatch_full pf l t E F) as (B1 & B2 & _). rewrite B1, B2. split; [reflexivity|]. split; [reflexivity|].
    rewrite concat_app, split_all_concat by apply natsMax_pos. reflexivity.
Qed.

Lemma arel_writes pf l log g p : arel pf l log g p -> (b_writes (ls_batch l) = 0 <-> b_buf (ls_batch l) = []).
Proof.
  intros (_ & B & W & P & _). rewrite B, W. destruct p as [|d p]; [split; reflexivity|]. inversion P; subst. split; [cbn [length]; lia|].
  intros H. cbn [concat] in H. apply app_eq_nil in H. destruct H; contradiction.
Qed.

Lemma hstep_moved pf c qs h lab : hrel pf c qs h -> moved (h_l h) (h_l (hstep pf c h lab)) (snd lab).
Proof.
  intros [(g & p & A) _ _ Lg _ _]. pose proof (arel_writes _ _ _ _ _ A) as W. destruct A as (A1 & A2 & A3 & A4 & A5 & A6 & A7 & A8 & A9).
  assert (Snd : moved (h_l h) (sendBatch pf (h_l h) (snd lab)) (snd lab)) by (destruct (send_moved pf (h_l h) (snd lab) A1 A8 W) as (S1 & S2 & S3); apply mv_send; auto).
  assert (Same : moved (h_l h) (h_l h) (snd lab)) by (apply mv_same; auto).
  destruct lab as [[i|] t]; unfold hstep; cbn [fst snd] in *.
  - unfold req_step. destruct (nth_error (h_reqs h) i) as [r|]; [|exact Same].
    destruct r as [body sched|segs some e|e|g']; [| | |exact Same].
    + destruct (ReadFrom _ body sched t) as [[[[b tot] rest] e]|] eqn:E; [|exact Same].
      destruct (ReadFrom_buf _ _ _ _ _ _ _ _ A1 E) as (B1 & B2 & B3 & B4 & B5 & _).
      destruct tot as [|x tot]; cbn [h_l].
      * apply mv_same; cbn [ls_pub ls_batch inc_read_errors set_batch]; [reflexivity|rewrite B2, app_nil_r; reflexivity|cbn [nonnil] in B3; lia|]. intros Hw. apply B5; [right; reflexivity|lia].
      * apply mv_add with (d := x :: tot); cbn [ls_pub ls_batch inc_received set_batch]; [reflexivity|exact B2|exact B3|].
        destruct A1 as (?&?&?). destruct (Z.eqb_spec (b_writes (ls_batch (h_l h))) 0); [apply B4; auto|apply B5; [left|]; lia].
    + destruct segs as [|l ls]; [destruct some; cbn [h_l]; apply mv_same; auto|]. cbn [h_l].
      destruct (Append_buf (ls_batch (h_l h)) l t A1) as (B1 & B2 & B3 & B4). apply mv_add with (d := l); cbn [ls_pub ls_batch set_batch]; auto.
    + cbn [h_l]. unfold maybeSendBatch. destruct (Listener.shouldSend _ _ _); [|apply mv_same; auto].
      destruct (send_moved pf (h_l h) t A1 A8 W) as (S1 & S2 & S3). apply mv_send; auto.
  - unfold age_step. cbn [h_l]. destruct (_ <=? _); [exact Snd|exact Same].
Qed.

Lemma hrun_snoc pf c h labs lab : hrun pf c h (labs ++ [lab]) = hstep pf c (hrun pf c h labs) lab.
Proof. unfold hrun. rewrite fold_left_app. reflexivity. Qed.
Lemma hrun_app pf c h a b : hrun pf c h (a ++ b) = hrun pf c (hrun pf c h a) b.
Proof. unfold hrun. apply fold_left_app. Qed.

Lemma hrun_tinv pf c : forall labs h t, tinv c h t -> monotone t labs -> Forall (fun x => snd x <= last (map snd labs) t) labs /\ tinv c (hrun pf c h labs) (last (map snd labs) t) /\ t <= last (map snd labs) t.
Proof.
  induction labs as [|lab labs IH]; intros h t T M; [split; [constructor|split; [exact T|cbn; lia]]|].
  destruct lab as [lb t']. destruct M as [M1 M2]. pose proof (hstep_tinv pf c h (lb, t') t T M1) as T'. cbn [snd] in T'.
  destruct (IH _ _ T' M2) as (I1 & I2 & I3).
  assert (E : last (map snd ((lb, t') :: labs)) t = last (map snd labs) t').
  { cbn [map snd]. destruct (map snd labs) as [|y ys] eqn:Ey; [reflexivity|]. clear. revert y. induction ys as [|z ys IH]; intros y; [reflexivity|]. apply IH. }
  rewrite E. split; [constructor; [cbn [snd]; exact I3|exact I1]|]. split; [exact I2|lia].
Qed.

Lemma init_tinv c t0 qs : 0 <= lc_max_size c -> 0 <= lc_max_age c -> tinv c (hinit c t0 qs) t0.
Proof. intros. constructor; unfold hinit, newListener, New, Inv, Size; simpl; lia. Qed.

Lemma monotone_app t a b : monotone t (a ++ b) -> monotone t a.
Proof. revert t. induction a as [|[l t'] a IH]; intros t M; [exact I|]. destruct M as [M1 M2]. split; eauto. Qed.

(** Everything that a listener held after [labs1], whose times are at most [T], is published by a check at [T + max age] or later. *)
Lemma http_latency pf c t0 qs labs1 labs2 now : 0 <= lc_max_size c -> 0 <= lc_max_age c ->
  let h1 := hrun pf c (hinit c t0 qs) labs1 in
  let h := hrun pf c (hinit c t0 qs) (labs1 ++ labs2 ++ [(LAge, now)]) in
  monotone t0 (labs1 ++ labs2 ++ [(LAge, now)]) -> t0 <= now - lc_max_age c -> Forall (fun x => snd x <= now - lc_max_age c) labs1 ->
  exists rest, concat (ls_pub (h_l h)) = concat (ls_pub (h_l h1)) ++ Bytes (ls_batch (h_l h1)) ++ rest.
Proof.
  intros Hc Ha h1 h M T0 Old. set (L := concat (ls_pub (h_l h1)) ++ Bytes (ls_batch (h_l h1))).
  set (T := now - lc_max_age c) in *.
  pose (J := fun x : lstate => (exists r, concat (ls_pub x) = L ++ r) \/ ((exists r, concat (ls_pub x) ++ b_buf (ls_batch x) = L ++ r) /\ 0 < b_writes (ls_batch x) /\ b_created (ls_batch x) <= T)).
  assert (Hr : forall labs, hrel pf c qs (hrun pf c (hinit c t0 qs) labs)) by (intros; apply hrun_rel; exact Hc).
  assert (J1 : J (h_l h1)).
  { destruct (hrun_tinv pf c labs1 (hinit c t0 qs) t0 (init_tinv c t0 qs Hc Ha) (monotone_app _ _ _ M)) as (_ & Ti & _). fold h1 in Ti.
    destruct Ti as [I1 I2 _ _]. destruct (Hr labs1) as [(g & p & A) _ _ _ _ _]. fold h1 in A. pose proof (arel_writes _ _ _ _ _ A) as W.
    destruct (Z.eq_dec (b_writes (ls_batch (h_l h1))) 0) as [Z0|Z0].
    - left. exists []. unfold L, Bytes. apply W in Z0. rewrite Z0, !app_nil_r. reflexivity.
    - assert (0 < b_writes (ls_batch (h_l h1))) by (destruct A as (_ & _ & A & _); lia). right. split; [exists []; rewrite app_nil_r; reflexivity|]. split; [assumption|].
      specialize (I2 H). assert (X : last (map snd labs1) t0 <= T).
      { clear - Old T0. induction labs1 as [|x l IH] using rev_ind; [exact T0|]. rewrite map_app. cbn [map]. rewrite last_last. apply Forall_app in Old. destruct Old as [_ Old]. inversion Old; assumption. }
      lia. }
  assert (Jl : forall labs, J (h_l (hrun pf c (hinit c t0 qs) (labs1 ++ labs)))).
  { induction labs as [|lab labs IH] using rev_ind; [rewrite app_nil_r; exact J1|]. rewrite app_assoc, hrun_snoc.
    destruct (hstep_moved pf c qs _ lab (Hr (labs1 ++ labs))) as [P B W C|d P B W C|P B W]; set (h0 := hrun pf c (hinit c t0 qs) (labs1 ++ labs)) in *.
    - destruct IH as [(r & IH)|((r & IH) & Wr & Cr)]; [left; exists r; rewrite P; exact IH|]. right. rewrite P, B, W, C by exact Wr. eauto.
    - destruct IH as [(r & IH)|((r & IH) & Wr & Cr)]; [left; exists r; rewrite P; exact IH|]. right. rewrite P, B, W, C. split; [exists (r ++ d); rewrite app_assoc, IH, <- app_assoc; reflexivity|].
      split; [lia|]. replace (b_writes (ls_batch (h_l h0)) =? 0) with false by lia. exact Cr.
    - left. rewrite P. destruct IH as [(r & IH)|((r & IH) & _)]; [rewrite IH, <- app_assoc; eauto|eauto]. }
  assert (Last : exists r, concat (ls_pub (h_l h)) = L ++ r).
  { unfold h. rewrite app_assoc, hrun_snoc. specialize (Jl labs2). destruct (Hr (labs1 ++ labs2)) as [(g & p & A) _ _ _ _ _]. pose proof (arel_writes _ _ _ _ _ A) as W.
    set (h0 := hrun pf c (hinit c t0 qs) (labs1 ++ labs2)) in *. destruct A as (A1 & _ & _ & _ & _ & _ & _ & A8 & _).
    unfold hstep, age_step. cbn [fst snd h_l]. destruct (send_moved pf (h_l h0) now A1 A8 W) as (S1 & S2 & S3).
    destruct Jl as [(r & E)|((r & E) & Wr & Cr)].
    - destruct (_ <=? _); [rewrite S3, E, <- app_assoc; eauto|eauto].
    - replace (lc_max_age c <=? Age (ls_batch (h_l h0)) now) with true; [rewrite S3; eauto|]. unfold Age. replace (b_writes (ls_batch (h_l h0)) <=? 0) with false by lia. unfold T in Cr. lia. }
  destruct Last as (r & E). exists r. rewrite E. unfold L. rewrite app_assoc. reflexivity.
Qed.

(** ** How often the age check runs *)

(** A history in which the timer of the age sender never fires early. *)
Fixpoint never_early (pf : nat -> bool) (c : lconf) (h : hstate) (labs : list (hlabel * Z)) : Prop :=
  match labs with
  | [] => True
  | lab :: labs' => match fst lab with LAge => h_wake h <= snd lab | LReq _ => True end /\ never_early pf c (hstep pf c h lab) labs'
  end.
Definition only_requests (labs : list (hlabel * Z)) : Prop := forall t, ~ In (LAge, t) labs.

Lemma never_early_app pf c : forall a h b, never_early pf c h (a ++ b) -> never_early pf c h a /\ never_early pf c (hrun pf c h a) b.
Proof. induction a as [|x a IH]; intros h b H; [split; [exact I|exact H]|]. destruct H as [H1 H2]. destruct (IH _ _ H2). split; [split|]; assumption. Qed.
Lemma monotone_mid : forall a t b, monotone t (a ++ b) -> monotone (last (map snd a) t) b.
Proof.
  induction a as [|[l t'] a IH]; intros t b M; [exact M|]. destruct M as [M1 M2]. specialize (IH _ _ M2).
  assert (E : last (map snd ((l, t') :: a)) t = last (map snd a) t').
  { cbn [map snd]. destruct (map snd a) as [|y ys] eqn:Ey; [reflexivity|]. clear. revert y. induction ys as [|z ys IH]; intros y; [reflexivity|]. apply IH. }
  rewrite E. exact IH.
Qed.

Lemma req_wake pf c h i t : h_wake (hstep pf c h (LReq i, t)) = h_wake h.
Proof.
  unfold hstep, req_step. cbn [fst snd]. destruct (nth_error _ _) as [r|]; [|reflexivity]. destruct r as [body sched|segs some e|e|g]; [| | |reflexivity].
  - destruct (ReadFrom _ _ _ _) as [[[[b tot] rest] e]|]; [|reflexivity]. destruct tot; reflexivity.
  - destruct segs; [destruct some|]; reflexivity.
  - reflexivity.
Qed.

(** Between checks: the wake-up time stays, and the batch is the one it was or a younger one. *)
Lemma requests_keep pf c qs t : forall labs h, hrel pf c qs h -> only_requests labs -> monotone t labs ->
  let h' := hrun pf c h labs in
  hrel pf c qs h' /\ h_wake h' = h_wake h /\
  (0 < b_writes (ls_batch (h_l h')) -> t <= b_created (ls_batch (h_l h')) \/ 0 < b_writes (ls_batch (h_l h)) /\ b_created (ls_batch (h_l h')) = b_created (ls_batch (h_l h))).
Proof.
  intros labs. induction labs as [|[lb u] labs IH] using rev_ind; intros h R O M; cbv zeta; [split; [exact R|]; split; [reflexivity|]; cbn; auto|].
  rewrite hrun_snoc. assert (O' : only_requests labs) by (intros x Hx; apply (O x); apply in_app_iff; left; exact Hx).
  destruct (IH h R O' (monotone_app _ _ _ M)) as (I1 & I2 & I3). set (h' := hrun pf c h labs) in *.
  assert (Tu : t <= u). { clear - M. revert t M. induction labs as [|[l t'] labs IH]; intros t M; [destruct M; assumption|]. destruct M as [M1 M2]. specialize (IH _ M2). lia. }
  destruct lb as [i|]; [|exfalso; apply (O u); apply in_app_iff; right; left; reflexivity].
  split; [apply req_step_rel; exact I1|]. split; [rewrite req_wake; exact I2|].
  destruct (hstep_moved pf c qs h' (LReq i, u) I1) as [P B W C|d P B W C|P B W]; cbn [snd] in *.
  - rewrite W. intros H. rewrite C by exact H. auto.
  - intros H. rewrite C. destruct (Z.eqb_spec (b_writes (ls_batch (h_l h'))) 0) as [Z0|Z0]; [left; exact Tu|]. apply I3.
    destruct I1 as [(g & p & A) _ _ _ _ _]. destruct A as (_ & _ & A & _). lia.
  - rewrite W. lia.
Qed.

Lemma wakes_apart pf c t0 qs labs t1 a t2 b t3 : 0 <= lc_max_size c -> 0 <= lc_max_age c ->
  let all := labs ++ (LAge, t1) :: a ++ (LAge, t2) :: b ++ [(LAge, t3)] in
  monotone t0 all -> never_early pf c (hinit c t0 qs) all -> only_requests a -> only_requests b ->
  t1 + lc_max_age c <= t3.
Proof.
  intros Hc Ha all M N Oa Ob. unfold all in *. destruct (never_early_app _ _ _ _ _ N) as [_ N1]. pose proof (monotone_mid _ _ _ M) as M1.
  pose proof (hrun_rel pf c t0 qs labs Hc) as R0. set (h0 := hrun pf c (hinit c t0 qs) labs) in *.
  destruct N1 as [_ N1]. destruct M1 as [_ M1]. cbn [snd] in M1. pose proof (age_step_rel pf c qs h0 t1 R0) as R1.
  assert (E1 : hstep pf c h0 (LAge, t1) = age_step pf c h0 t1) by reflexivity. rewrite E1 in N1. set (h1 := age_step pf c h0 t1) in *.
  destruct (never_early_app _ _ _ _ _ N1) as [_ N2]. pose proof (monotone_app _ _ _ M1) as Ma.
  destruct (requests_keep pf c qs t1 a h1 R1 Oa Ma) as (R2 & W2 & C2). set (h2 := hrun pf c h1 a) in *.
  destruct N2 as [N2 N3]. cbn [fst snd] in N2. pose proof (monotone_mid _ _ _ M1) as M2. destruct M2 as [M2 M3]. cbn [snd] in M3.
  assert (E2 : hstep pf c h2 (LAge, t2) = age_step pf c h2 t2) by reflexivity. rewrite E2 in N3.
  pose proof (age_step_rel pf c qs h2 t2 R2) as R3. set (h3 := age_step pf c h2 t2) in *.
  destruct (requests_keep pf c qs t2 b h3 R3 Ob (monotone_app _ _ _ M3)) as (_ & W4 & _).
  destruct (never_early_app _ _ _ _ _ N3) as [_ [N4 _]]. cbn [fst snd] in N4. rewrite W4 in N4.
  assert (T12 : t1 <= t2).
  { destruct (never_early_app _ _ _ _ _ N1) as [_ _]. clear - M1. revert t1 M1. induction a as [|[l t'] a IH]; intros t1 M1; [destruct M1; assumption|]. destruct M1 as [X Y]. specialize (IH _ Y). lia. }
  enough (t1 + lc_max_age c <= h_wake h3) by lia.
  unfold h3, age_step. cbn [h_wake]. set (l3 := if lc_max_age c <=? Age (ls_batch (h_l h2)) t2 then sendBatch pf (h_l h2) t2 else h_l h2).
  destruct R2 as [(g & p & A) _ _ _ _ _]. pose proof (arel_writes _ _ _ _ _ A) as Wb. destruct A as (A1 & _ & Aw & _ & _ & _ & _ & A8 & _).
  destruct (send_moved pf (h_l h2) t2 A1 A8 Wb) as (S1 & S2 & S3).
  unfold Age. destruct (Z.leb_spec (b_writes (ls_batch l3)) 0) as [Z0|Z0]; [lia|].
  assert (El : l3 = h_l h2) by (unfold l3 in *; destruct (_ <=? _); [lia|reflexivity]).
  assert (Nl : lc_max_age c <=? Age (ls_batch (h_l h2)) t2 = false) by (unfold l3 in *; destruct (_ <=? _); [lia|reflexivity]).
  rewrite El in *. specialize (C2 Z0). destruct C2 as [C2|(Wr & C2)]; [lia|exfalso].
  (* the batch of the previous check: the timer was set to its age limit *)
  unfold Age in Nl. replace (b_writes (ls_batch (h_l h2)) <=? 0) with false in Nl by lia. rewrite C2 in Nl.
  rewrite W2 in N2. unfold h1, age_step in N2, Wr, C2, Nl. cbn [h_wake h_l] in N2, Wr, C2, Nl.
  unfold Age in N2 at 1. match type of Wr with 0 < ?x => replace (x <=? 0) with false in N2 by lia end. lia.
Qed.

(** With an age limit of zero or less a new wait is over at once. *)
Lemma wake_at_once pf c h t : lc_max_age c <= 0 -> 0 <= Age (ls_batch (h_l (age_step pf c h t))) t -> h_wake (age_step pf c h t) <= t.
Proof. unfold age_step. cbn [h_wake h_l]. intros. lia. Qed.

Definition is_age (lab : hlabel * Z) : bool := match fst lab with LAge => true | LReq _ => false end.
Lemma first_age : forall labs, (1 <= length (filter is_age labs))%nat -> exists a t b, labs = a ++ (LAge, t) :: b /\ only_requests a /\ length (filter is_age b) = (length (filter is_age labs) - 1)%nat.
Proof.
  induction labs as [|[l t] labs IH]; intros L; [cbn in L; lia|]. destruct l as [i|].
  - cbn [filter is_age fst] in *. change (is_age (LReq i, t)) with false in *. cbv iota in *. destruct (IH L) as (a & t' & b & -> & O & E). exists ((LReq i, t) :: a), t', b. split; [reflexivity|]. split; [|exact E].
    intros x [H|H]; [discriminate H|exact (O x H)].
  - exists [], t, labs. split; [reflexivity|]. split; [intros x []|]. cbn [filter]. change (is_age (LAge, t)) with true. cbv iota. cbn [length]. lia.
Qed.

Lemma wakes_few pf c t0 qs pre mid T : 0 <= lc_max_size c -> 0 <= lc_max_age c ->
  monotone t0 (pre ++ mid) -> never_early pf c (hinit c t0 qs) (pre ++ mid) -> Forall (fun x => T <= snd x < T + lc_max_age c) mid ->
  (length (filter is_age mid) <= 2)%nat.
Proof.
  intros Hc Ha M N W. destruct (le_lt_dec (length (filter is_age mid)) 2) as [L|L]; [exact L|exfalso].
  destruct (first_age mid) as (a0 & t1 & r1 & E1 & _ & L1); [lia|].
  destruct (first_age r1) as (a & t2 & r2 & E2 & Oa & L2); [lia|].
  destruct (first_age r2) as (b & t3 & r3 & E3 & Ob & L3); [lia|].
  assert (E : pre ++ mid = ((pre ++ a0) ++ (LAge, t1) :: a ++ (LAge, t2) :: b ++ [(LAge, t3)]) ++ r3).
  { rewrite E1, E2, E3. rewrite <- !app_assoc. cbn [app]. rewrite <- !app_assoc. cbn [app]. rewrite <- !app_assoc. reflexivity. }
  rewrite E in M, N. apply monotone_app in M. apply never_early_app in N. destruct N as [N _].
  pose proof (wakes_apart pf c t0 qs (pre ++ a0) t1 a t2 b t3 Hc Ha M N Oa Ob) as Sp.
  rewrite Forall_forall in W. assert (W1 := W (LAge, t1)). assert (W3 := W (LAge, t3)). cbn [snd] in W1, W3.
  assert (I1 : In (LAge, t1) mid) by (rewrite E1; apply in_app_iff; right; left; reflexivity).
  assert (I3 : In (LAge, t3) mid). { rewrite E1, E2, E3. apply in_app_iff. right. right. apply in_app_iff. right. right. apply in_app_iff. right. left. reflexivity. }
  specialize (W1 I1). specialize (W3 I3). lia.
Qed.

Lemma wakes_many pf c t0 qs n : lc_max_age c = 0 -> never_early pf c (hinit c t0 qs) (repeat (LAge, t0) n).
Proof.
  intros Ha. assert (G : forall h, h_wake h <= t0 -> b_writes (ls_batch (h_l h)) <= 0 -> b_buf (ls_batch (h_l h)) = [] -> never_early pf c h (repeat (LAge, t0) n)).
  { induction n as [|n IH]; intros h W B F; [exact I|]. cbn [repeat never_early fst snd]. split; [exact W|].
    unfold hstep, age_step. cbn [fst snd]. rewrite (sendBatch_empty pf (h_l h) t0 F).
    assert (El : (if lc_max_age c <=? Age (ls_batch (h_l h)) t0 then h_l h else h_l h) = h_l h) by (destruct (_ <=? _); reflexivity). rewrite El.
    apply IH; cbn [h_wake h_l]; auto. unfold Age. replace (b_writes (ls_batch (h_l h)) <=? 0) with true by lia. lia. }
  apply G; unfold hinit, newListener, New; cbn; lia || reflexivity.
Qed.

(** ** How often statistics are reported *)

(** listener/listener.go:417-429, filter/filter.go:164-195, writer/writer.go:247-285, downsampler/downsampler.go:186-214
    startStatistician: publish a report, wait for [interval], repeat.  Each pair in [delays] is how long the reporting took and
    how late the timer was; a timer for zero or less fires at once. *)
Fixpoint statistician (interval t : Z) (delays : list (Z * Z)) : list Z :=
  match delays with
  | [] => [t]
  | (work, late) :: ds => t :: statistician interval (t + work + Z.max interval 0 + late) ds
  end.

Lemma reports_apart interval : 0 <= interval -> forall delays t, Forall (fun d => 0 <= fst d /\ 0 <= snd d) delays ->
  let ts := statistician interval t delays in
  (Z.of_nat (length ts) - 1) * interval <= last ts t - t.
Proof.
  intros Hi. induction delays as [|[w l] ds IH]; intros t F; cbv zeta; [cbn; lia|]. inversion F as [|? ? [Fw Fl] F']; subst. cbn [fst snd] in Fw, Fl.
  cbn [statistician]. set (t' := t + w + Z.max interval 0 + l). specialize (IH t' F'). cbv zeta in IH.
  assert (E : forall d, last (t :: statistician interval t' ds) d = last (statistician interval t' ds) t').
  { intros d. destruct ds as [|[a b] ds]; [reflexivity|]. cbn [statistician]. generalize (statistician interval (t' + a + Z.max interval 0 + b) ds). intros r. cbn [last]. destruct r as [|x r]; [reflexivity|].
    clear. revert x. induction r as [|y r IH]; intros x; [reflexivity|]. apply IH. }
  rewrite E. cbn [length]. rewrite Nat2Z.inj_succ. unfold t' in *. nia.
Qed.

Lemma reports_many interval t n : interval <= 0 -> statistician interval t (repeat (0, 0) n) = repeat t (S n).
Proof.
  intros Hi. revert t. induction n as [|n IH]; intros t; [reflexivity|]. cbn [repeat statistician]. rewrite IH. replace (t + 0 + Z.max interval 0 + 0) with t by lia. reflexivity.
Qed.

(** The first check comes batch_max_age after the start. *)
Lemma first_check pf c t0 qs labs t : 0 <= lc_max_size c -> monotone t0 (labs ++ [(LAge, t)]) -> only_requests labs ->
  never_early pf c (hinit c t0 qs) (labs ++ [(LAge, t)]) -> t0 + lc_max_age c <= t.
Proof.
  intros Hc M O N. destruct (never_early_app _ _ _ _ _ N) as [_ [N1 _]]. cbn [fst snd] in N1.
  destruct (requests_keep pf c qs t0 labs (hinit c t0 qs) (hrun_rel pf c t0 qs [] Hc) O (monotone_app _ _ _ M)) as (_ & W & _). rewrite W in N1. exact N1.
Qed.
