(** A filter one of whose output subjects is its input. *)
From Verif Require Import Base LinesSpec Text TextSpec Rules RulesSpec RulesProofs RouteProofs FilterWorker FilterSpec FilterProofs EndToEnd EndToEndProofs.
Local Open Scope nat_scope.

(** Messages on the way: [n] times around, for clock readings [clk]: of the [S n] messages received only the first was
    sent by somebody else, and the last one published is on its way to the filter again. *)
Definition circulates (gs : forall A : Type, (A -> A -> bool) -> list A -> list A) (c : fcfg) (input m : bytes) (clk : nat -> Z) (n : nat) : Prop :=
  exists fl s, fexec gs c (startFilter c 1) fl s /\ quiet s /\
    received fl = repeat m (S n) /\ on_subjects [input] (performed fl) = repeat m (S n) /\
    map (fun j : job => snd (fst j)) (taken fl) = map clk (seq 0 (S n)).

Lemma outputs_rule rs m x i r : nth_error rs i = Some r -> forall k,
  filter (fun p : bytes * bytes => match snd p with [] => false | _ => true end)
    (map (fun ir : nat * rule => (r_subject (snd ir), data_for (fst ir) [FateRule (i + k) (x :: m)])) (combine (seq k (length rs)) rs)) = [(r_subject r, x :: m)].
Proof.
  revert i. induction rs as [|r0 rs IH]; intros i H k; [destruct i; discriminate|]. cbn [length seq combine map filter fst snd].
  assert (D : forall a b, data_for a [FateRule b (x :: m)] = if Nat.eqb b a then x :: m else []) by (intros a b; unfold data_for; cbn [flat_map]; destruct (Nat.eqb b a); rewrite ?app_nil_r; auto).
  rewrite D. destruct i as [|i].
  - cbn [nth_error] in H. inversion H; subst. rewrite Nat.eqb_refl. f_equal.
    assert (G : forall l, Forall (fun y : nat * rule => k < fst y) l -> filter (fun p : bytes * bytes => match snd p with [] => false | _ => true end)
      (map (fun ir : nat * rule => (r_subject (snd ir), data_for (fst ir) [FateRule (0 + k) (x :: m)])) l) = []).
    { induction 1 as [|[a b] l L _ IHl]; auto. cbn [map filter fst snd] in *. rewrite D. destruct (Nat.eqb_spec (0 + k) a); [lia|exact IHl]. }
    apply G. apply Forall_forall. intros [a b] Hy. apply in_combine_l in Hy. apply in_seq in Hy. cbn. lia.
  - destruct (Nat.eqb_spec (S i + k) k); [lia|]. replace (S i + k) with (i + S k) by lia. apply IH. exact H.
Qed.

Lemma outputs_nothing rs k fs : (forall i, data_for i fs = []) ->
  filter (fun p : bytes * bytes => match snd p with [] => false | _ => true end)
    (map (fun ir : nat * rule => (r_subject (snd ir), data_for (fst ir) fs)) (combine (seq k (length rs)) rs)) = [].
Proof. intros H. generalize (combine (seq k (length rs)) rs). induction l as [|[a b] l IH]; auto. cbn [map filter fst snd]. rewrite H. exact IH. Qed.

(** What a worker does with the message: it publishes it on the subject, and nothing else. *)
Lemma loop_batch gs c input m now oks : sorts gs -> (exists p, ~ In nl p /\ m = p ++ [nl]) ->
  int64 (now - fc_delta c) -> int64 (now + fc_delta c) -> passes c now m -> belongs (fc_rules c) (fc_junk c) m input ->
  exists acts, processBatch gs c oks now (newFilterWorker c) m = (newFilterWorker c, acts) /\ published acts = [(input, m)] /\
    (oks 0 = true -> on_subjects [input] acts = [m]).
Proof.
  intros GS (p & Np & Em) B1 B2 (Tw & (m0 & tags0 & rest0 & Pt0 & Ks) & Cl) (m1 & tags1 & rest1 & o & Pt1 & Fo & Ho).
  assert (Lm : lines_of m = [m]) by (rewrite Em; apply (lines_of_nl_app p []); auto).
  destruct (processBatch_spec gs c oks now m (first_rule (fc_rules c)) GS B1 B2) as (fs & F & E).
  { rewrite Lm. constructor; [|constructor]. apply right_first_rule; auto. }
  rewrite Lm in F. inversion F as [|? f ? fs' L F']; subst fs. inversion F'; subst fs'. clear F F'.
  eexists. split; [exact E|]. clear E.
  assert (Nm : exists hd0 tl0, m = hd0 :: tl0) by (rewrite Em; destruct p; cbn; eauto). destruct Nm as (h0 & t0 & Nm).
  assert (O : outputs (fc_rules c) (fc_junk c) [f] = [(input, m)]).
  { inversion L as [ts T W Ef|ts T W P Ef|ts m' tags rest text i T W P Sx R Ef|ts m' tags rest text T W P Sx R Ef]; subst f.
    - exfalso. apply W. destruct Tw as (ts' & T' & W'). rewrite (line_time_unique now m ts ts'); auto.
    - rewrite Pt0 in P. discriminate.
    - rewrite Pt0 in P, Pt1. inversion P; inversion Pt1; subst m0 m1 tags0 tags1 rest0 rest1. clear P Pt1.
      destruct Sx as (tags' & _ & _ & S1 & _). pose proof (S1 Ks) as Et. subst text.
      assert (o = Some i) by (eapply first_such_unique; eauto). subst o. destruct Ho as (r & Hr & Hs).
      unfold outputs. rewrite filter_app. rewrite Nm. pose proof (outputs_rule (fc_rules c) t0 h0 i r Hr 0) as G. rewrite Nat.add_0_r in G. change (list ascii) with bytes in *. rewrite G.
      unfold junk_for. cbn. rewrite Hs. reflexivity.
    - rewrite Pt0 in P, Pt1. inversion P; inversion Pt1; subst m0 m1 tags0 tags1 rest0 rest1. clear P Pt1.
      destruct Sx as (tags' & _ & _ & S1 & _). pose proof (S1 Ks) as Et. subst text.
      assert (o = None) by (eapply first_such_unique; eauto). subst o. subst input.
      unfold outputs. change (list ascii) with bytes. rewrite filter_app, outputs_nothing by reflexivity.
      unfold junk_for. cbn [flat_map]. rewrite app_nil_r. cbn [app filter snd]. rewrite Nm. reflexivity. }
  rewrite O. split; [rewrite published_app, published_fates, published_pubs; reflexivity|].
  intros Ok. unfold on_subjects. rewrite flat_map_app. cbn [pub_acts]. unfold publish. rewrite Ok.
  assert (Z : flat_map (fun a => match a with APublish s d true => if existsb (beqs s) [input] then [d] else [] | _ => [] end) (flat_map fate_acts [f]) = []) by (destruct f; reflexivity).
  rewrite Z. cbn. rewrite beqs_refl. reflexivity.
Qed.

Lemma exec_acts gs c s0 ls q d st todo : forall acts, fexec gs c s0 ls (mkFsys q [WBusy st (acts ++ todo)] d false) ->
  fexec gs c s0 (ls ++ map (LAct 0) acts) (mkFsys q [WBusy st todo] (d ++ acts) false).
Proof.
  intros acts. revert ls d. induction acts as [|a acts IH]; intros ls d H; [cbn; rewrite !app_nil_r; exact H|].
  cbn [map]. replace (ls ++ LAct 0 a :: map (LAct 0) acts) with ((ls ++ [LAct 0 a]) ++ map (LAct 0) acts) by (rewrite <- app_assoc; auto).
  replace (d ++ a :: acts) with ((d ++ [a]) ++ acts) by (rewrite <- app_assoc; auto).
  apply IH. eapply fe_step; [exact H|].
  change [WBusy st (acts ++ todo)] with (set_nth [WBusy st ((a :: acts) ++ todo)] 0 (WBusy st (acts ++ todo))). apply fs_act. reflexivity.
Qed.

Lemma performed_acts acts : performed (map (LAct 0) acts) = acts /\ received (map (LAct 0) acts) = [] /\ taken (map (LAct 0) acts) = [].
Proof. induction acts as [|a acts (A & B & C)]; auto. unfold performed, received, taken in *. cbn [map flat_map app]. rewrite A, B, C. auto. Qed.

Lemma loop_run gs c input m clk : sorts gs -> (exists p, ~ In nl p /\ m = p ++ [nl]) ->
  (forall k, int64 (clk k - fc_delta c) /\ int64 (clk k + fc_delta c) /\ passes c (clk k) m) -> belongs (fc_rules c) (fc_junk c) m input ->
  forall n, circulates gs c input m clk n.
Proof.
  intros GS Hm Hk Hb.
  assert (G : forall n, exists fl d, fexec gs c (startFilter c 1) fl (mkFsys [] [WIdle (newFilterWorker c)] d false) /\
    received fl = repeat m n /\ on_subjects [input] (performed fl) = repeat m n /\
    map (fun j : job => snd (fst j)) (taken fl) = map clk (seq 0 n)).
  { induction n as [|n (fl & d & X & R & O & T)]; [exists [], []; split; [apply fe_nil|auto]|].
    destruct (Hk n) as (B1 & B2 & Ps). destruct (loop_batch gs c input m (clk n) (fun _ => true) GS Hm B1 B2 Ps Hb) as (acts & E & _ & On).
    specialize (On eq_refl). destruct (performed_acts acts) as (Pa & Pr & Pt).
    exists ((((fl ++ [LReceive m]) ++ [LTake 0 (fun _ => true, clk n, m)]) ++ map (LAct 0) acts) ++ [LDone 0]), (d ++ acts).
    split; [|split; [|split]].
    - eapply fe_step; [|change [WIdle (newFilterWorker c)] with (set_nth [WBusy (newFilterWorker c) []] 0 (WIdle (newFilterWorker c))); apply fs_done; reflexivity].
      apply exec_acts. rewrite app_nil_r. eapply fe_step; [eapply fe_step; [exact X|apply fs_receive; vm_compute; lia]|].
      change [WBusy (newFilterWorker c) acts] with (set_nth [WIdle (newFilterWorker c)] 0 (WBusy (newFilterWorker c) acts)). cbn [app].
      eapply fs_take; [reflexivity|exact E].
    - unfold received in *. rewrite !flat_map_app, R, Pr. cbn [flat_map app]. rewrite !app_nil_r. rewrite <- repeat_cons. reflexivity.
    - unfold performed in *. rewrite !flat_map_app, Pa. cbn [flat_map app]. rewrite !app_nil_r. unfold on_subjects in *.
      rewrite flat_map_app, O, On. symmetry. apply (repeat_cons n m).
    - unfold taken in *. rewrite !flat_map_app, Pt. cbn [flat_map app]. rewrite !app_nil_r, map_app, T.
      rewrite seq_S, map_app. reflexivity. }
  intros n. destruct (G (S n)) as (fl & d & X & R & O & T). exists fl, (mkFsys [] [WIdle (newFilterWorker c)] d false).
  split; [exact X|]. split; [split; [reflexivity|repeat constructor]|]. auto.
Qed.

(** A line too short to have a timestamp is always in time. *)
Lemma short_passes c now m : length m <= 24 -> (0 < fc_delta c)%Z -> (exists m0 tags rest, ParseTags m = POk m0 tags rest /\ keys_sorted tags) -> clean (fc_rules c) m -> passes c now m.
Proof.
  intros L D P C. split; [|auto]. exists now. split; [right; auto|lia].
Qed.
