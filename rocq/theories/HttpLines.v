(** When lines of different HTTP requests stay apart: exactly when each unit is newline-ended or the last of its batch. *)
From Verif Require Import Base Timestamps NumProofs LinesSpec Splitter SplitterProofs Batch BatchSpec BatchProofs
  Listener ListenerSpec ListenerProofs HttpProofs.
Local Open Scope nat_scope.

(** Specification: in a batch made of the units [g], every unit followed by another one ends in a newline. *)
Definition apart (g : list bytes) : Prop := forall a u v b, g = a ++ u :: v :: b -> nl_ended u.

Lemma apart_cons u g : apart (u :: g) <-> (g = [] \/ nl_ended u) /\ apart g.
Proof.
  split.
  - intros H. split.
    + destruct g as [|v g]; [auto|]. right. apply (H [] u v g). reflexivity.
    + intros a w v b ->. apply (H (u :: a) w v b). reflexivity.
  - intros [H1 H2] a w v b E. destruct a as [|x a]; injection E as -> ->.
    + destruct H1 as [H1|H1]; [discriminate|exact H1].
    + apply (H2 a w v b). reflexivity.
Qed.

(** A buffer not newline-ended merges its last line with the first line of what follows. *)
Lemma lines_of_merge a b : ~ nl_ended a -> b <> [] -> length (lines_of (a ++ b)) < length (lines_of a) + length (lines_of b).
Proof.
  assert (G : forall n a, length a <= n -> ~ nl_ended a -> b <> [] -> length (lines_of (a ++ b)) < length (lines_of a) + length (lines_of b)); [|eauto].
  clear a. induction n as [|n IH]; intros a L H Hb.
  - destruct a; [|cbn in L; lia]. exfalso. apply H. left. reflexivity.
  - destruct (in_dec ascii_dec nl a) as [I0|I0].
    + assert (X : exists q1 q2, a = q1 ++ nl :: q2 /\ ~ In nl q1).
      { clear -I0. induction a as [|c b IH]; [contradiction|].
        destruct (ascii_dec c nl) as [->|N].
        - exists [], b; simpl; auto.
        - destruct I0 as [I0|I0]; [congruence|]. destruct (IH I0) as (q1 & q2 & -> & H).
          exists (c :: q1), q2. simpl. intuition. }
      destruct X as (q1 & q2 & -> & Hq). rewrite <- app_assoc. cbn [app]. rewrite !lines_of_nl_app by exact Hq. cbn [length].
      assert (length (lines_of (q2 ++ b)) < length (lines_of q2) + length (lines_of b)); [|lia].
      apply IH; [rewrite app_length in L; cbn [length] in L; lia| |exact Hb].
      intros [->|[p ->]]; apply H; right; [exists q1; reflexivity|]. exists (q1 ++ nl :: p). rewrite <- app_assoc. reflexivity.
    + assert (Ha : a <> []) by (intros ->; apply H; left; reflexivity).
      rewrite (lines_of_no_nl a I0 Ha). cbn [length].
      assert (length (lines_of (a ++ b)) <= length (lines_of b)); [|lia]. clear -I0 Hb.
      induction a as [|c a IH]; [cbn [app]; lia|]. cbn [app lines_of].
      destruct (Ascii.eqb_spec c nl) as [->|N]; [exfalso; apply I0; left; reflexivity|].
      assert (A : length (lines_of (a ++ b)) <= length (lines_of b)) by (apply IH; intros X; apply I0; right; exact X).
      destruct (lines_of (a ++ b)) as [|l ls] eqn:E; [|exact A].
      apply lines_of_nil in E. apply app_eq_nil in E. destruct E as [_ E]. contradiction.
Qed.

Lemma nl_ended_dec a : nl_ended a \/ ~ nl_ended a.
Proof.
  destruct a as [|c0 a0]; [left; left; reflexivity|]. destruct (exists_last (l := c0 :: a0)) as (p & c & E); [discriminate|]. rewrite E.
  destruct (ascii_dec c nl) as [->|N]; [left; right; exists p; reflexivity|]. right. intros [X|[q X]]; [destruct p; discriminate|].
  apply app_inj_tail in X. destruct X as [_ X]. contradiction.
Qed.

Lemma lines_of_le a b : length (lines_of (a ++ b)) <= length (lines_of a) + length (lines_of b).
Proof.
  destruct (nl_ended_dec a) as [H|H].
  - rewrite (lines_of_app a b H), app_length. lia.
  - destruct b as [|c b]; [rewrite app_nil_r; cbn; lia|]. pose proof (lines_of_merge a (c :: b) H ltac:(discriminate)). lia.
Qed.

Lemma lines_of_concat_le g : length (lines_of (concat g)) <= length (flat_map lines_of g).
Proof. induction g as [|u g IH]; cbn [concat flat_map]; [auto|]. rewrite app_length. pose proof (lines_of_le u (concat g)). lia. Qed.

Lemma lines_of_concat_iff g : Forall (fun u => u <> []) g ->
  (apart g -> lines_of (concat g) = flat_map lines_of g) /\ (length (lines_of (concat g)) = length (flat_map lines_of g) -> apart g).
Proof.
  induction 1 as [|u g Hu Hg [IH1 IH2]]; cbn [concat flat_map].
  - split; [reflexivity|]. intros _ a w v b E. destruct a; discriminate.
  - rewrite apart_cons. split.
    + intros [[->|H1] H2]; [cbn [concat flat_map]; rewrite !app_nil_r; reflexivity|]. rewrite lines_of_app by exact H1. rewrite IH1 by exact H2. reflexivity.
    + rewrite app_length. intros H. pose proof (lines_of_concat_le g) as LE. pose proof (lines_of_le u (concat g)) as LU. split; [|apply IH2; lia].
      destruct g as [|v g]; [left; reflexivity|]. right. destruct (nl_ended_dec u) as [Y|Y]; [exact Y|exfalso].
      inversion Hg as [|? ? Hv _]; subst.
      assert (concat (v :: g) <> []) by (cbn [concat]; destruct v; [contradiction|discriminate]).
      pose proof (lines_of_merge u (concat (v :: g)) Y H0). lia.
Qed.

Lemma groups_iff gs p : Forall (fun u => u <> []) (concat gs ++ p) ->
  (flat_map (fun g => lines_of (concat g)) gs ++ lines_of (concat p) = flat_map lines_of (concat gs ++ p) <-> Forall apart gs /\ apart p).
Proof.
  intros NE. rewrite flat_map_app. apply Forall_app in NE. destruct NE as [NE Np].
  assert (LE : length (flat_map (fun g => lines_of (concat g)) gs) <= length (flat_map lines_of (concat gs))).
  { clear NE. induction gs as [|g gs IH]; cbn [flat_map concat]; [auto|]. rewrite flat_map_app, !app_length. pose proof (lines_of_concat_le g). change (list ascii) with bytes in *. lia. }
  split.
  - intros E. apply (f_equal (@length _)) in E. rewrite !app_length in E. pose proof (lines_of_concat_le p) as LP.
    change (list ascii) with bytes in *. split; [|apply (lines_of_concat_iff p Np); lia].
    assert (E2 : length (flat_map (fun g => lines_of (concat g)) gs) = length (flat_map lines_of (concat gs))) by (change (list ascii) with bytes in *; lia). clear -NE E2.
    induction gs as [|g gs IH]; [constructor|]. cbn [flat_map concat] in *. rewrite flat_map_app, !app_length in E2. apply Forall_app in NE. destruct NE as [N1 N2].
    pose proof (lines_of_concat_le g) as L1.
    assert (L2 : length (flat_map (fun g => lines_of (concat g)) gs) <= length (flat_map lines_of (concat gs))).
    { clear. induction gs as [|g gs IH]; cbn [flat_map concat]; [auto|]. rewrite flat_map_app, !app_length. pose proof (lines_of_concat_le g). change (list ascii) with bytes in *. lia. }
    change (list ascii) with bytes in *. constructor; [apply (lines_of_concat_iff g N1); lia|apply IH; [exact N2|lia]].
  - intros [A1 A2]. rewrite (proj1 (lines_of_concat_iff p Np) A2). f_equal. clear -NE A1.
    induction A1 as [|g gs H A IH]; [reflexivity|]. cbn [flat_map concat] in *. apply Forall_app in NE. destruct NE as [N1 N2].
    rewrite flat_map_app, IH by exact N2. rewrite (proj1 (lines_of_concat_iff g N1) H). reflexivity.
Qed.

Lemma http_lines_iff pf c t0 qs labs : (0 <= lc_max_size c)%Z ->
  let h := hrun pf c (hinit c t0 qs) labs in
  ls_read_errors (h_l h) = 0%Z ->
  (forall r, In r (h_reqs h) -> exists got, r = RDone got) ->
  exists (log : list (nat * bytes)) (groups : list (list bytes)) (pend : list bytes),
    (forall i q, nth_error qs i = Some q -> entries i log = expected q) /\
    (forall i e, In (i, e) log -> i < length qs) /\
    map snd log = concat groups ++ pend /\
    concat (ls_pub (h_l h)) = concat (concat groups) /\ Bytes (ls_batch (h_l h)) = concat pend /\
    ls_sent (h_l h) = Z.of_nat (length groups) /\
    ((forall g l, In g groups -> In l (lines_of (concat g)) -> (Z.of_nat (length l) <= 1048576)%Z) ->
     (flat_map lines_of (ls_pub (h_l h)) ++ lines_of (Bytes (ls_batch (h_l h))) = flat_map lines_of (map snd log) <->
      Forall apart groups /\ apart pend)).
Proof.
  intros Hc h Z0 D.
  destruct (http_history pf c t0 qs labs Hc) as (log & groups & pend & L1 & L2 & L3 & _ & L6 & _ & L4 & L5).
  fold h in L2, L3, L5, L6. exists log, groups, pend.
  split.
  { intros i q Hq. destruct (L5 i q Hq) as [_ Hd].
    destruct (hrun_rel pf c t0 qs labs Hc) as [_ Len _ _ _ _]. fold h in Len.
    destruct (nth_error (h_reqs h) i) as [r|] eqn:Er.
    - destruct (D r (nth_error_In _ _ Er)) as [got ->]. eauto.
    - apply nth_error_None in Er. assert (i < length qs)%nat by (apply nth_error_Some; congruence). lia. }
  split; [intros i e Hi; apply (L4 i e Hi)|]. split; [exact L1|]. split.
  { rewrite L2. clear. induction groups as [|g gs IH]; [reflexivity|]. cbn [flat_map concat]. rewrite !concat_app, IH. f_equal.
    apply split_all_concat; apply natsMax_pos. }
  split; [exact L3|]. split; [exact L6|]. intros Fit. rewrite L2, L3.
  assert (NE : Forall (fun u => u <> []) (concat groups ++ pend)).
  { rewrite <- L1. apply Forall_forall. intros u Hu. apply in_map_iff in Hu. destruct Hu as ([i e] & <- & Hi). apply (L4 i e Hi). }
  rewrite L1, <- (groups_iff groups pend NE).
  assert (X : flat_map lines_of (flat_map (fun g => split_all natsMax (concat g)) groups) = flat_map (fun g => lines_of (concat g)) groups); [|rewrite X; reflexivity].
  clear -Fit. induction groups as [|g gs IH]; [reflexivity|]. cbn [flat_map]. rewrite flat_map_app, IH by (intros g0 l H; apply Fit; right; exact H). f_equal.
  apply split_all_lines; [apply natsMax_pos|]. apply Forall_forall. intros l Hl. specialize (Fit g l (or_introl eq_refl) Hl). pose proof natsMax_Z. lia.
Qed.
