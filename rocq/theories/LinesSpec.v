(** What "the lines of a buffer" means, independent of any scanning code. *)
From Verif Require Import Base.

(** Lines including their newline; a last line without newline counts as a line. *)
Fixpoint lines_of (b : bytes) : list bytes :=
  match b with
  | [] => []
  | c :: r =>
      if Ascii.eqb c nl then [nl] :: lines_of r
      else match lines_of r with
           | [] => [[c]]
           | l :: ls => (c :: l) :: ls
           end
  end.

(** Empty or ending in a newline. *)
Definition nl_ended (b : bytes) : Prop := b = [] \/ exists p, b = p ++ [nl].

Lemma lines_of_concat b : concat (lines_of b) = b.
Proof.
  induction b as [|c r IH]; auto. cbn [lines_of].
  destruct (Ascii.eqb_spec c nl) as [->|N]; [simpl; congruence|].
  destruct (lines_of r) eqn:E; simpl in *; subst; auto.
Qed.

Lemma lines_of_nonempty b l : In l (lines_of b) -> l <> [].
Proof.
  revert l; induction b as [|c r IH]; intros l; [contradiction|]. cbn [lines_of].
  destruct (Ascii.eqb_spec c nl) as [->|N].
  - intros [<-|H]; [discriminate|auto].
  - destruct (lines_of r) as [|x ls] eqn:E.
    + intros [<-|[]]; discriminate.
    + intros [<-|H]; [discriminate|]. apply IH. simpl; auto.
Qed.

Lemma lines_of_nil b : lines_of b = [] <-> b = [].
Proof.
  split; [|intros ->; auto]. intros H. rewrite <- (lines_of_concat b), H. auto.
Qed.

(** A line is newline free except possibly for its last byte. *)
Lemma lines_of_shape b l : In l (lines_of b) -> exists p, ~ In nl p /\ (l = p ++ [nl] \/ l = p).
Proof.
  revert l; induction b as [|c r IH]; intros l; [contradiction|]. cbn [lines_of].
  destruct (Ascii.eqb_spec c nl) as [->|N].
  - intros [<-|H]; [exists []; simpl; auto|auto].
  - destruct (lines_of r) as [|x ls] eqn:E.
    + intros [<-|[]]. exists [c]. simpl. intuition.
    + intros [<-|H]; [|apply IH; simpl; auto].
      destruct (IH x) as (p & Hp & [->| ->]); [simpl; auto| |].
      * exists (c :: p). simpl. intuition.
      * exists (c :: p). simpl. intuition.
Qed.

Lemma lines_of_nl_app p r : ~ In nl p -> lines_of (p ++ nl :: r) = (p ++ [nl]) :: lines_of r.
Proof.
  induction p as [|c p IH]; intros H; cbn [app lines_of].
  - reflexivity.
  - destruct (Ascii.eqb_spec c nl) as [->|N]; [exfalso; apply H; simpl; auto|].
    rewrite IH by (simpl in H; tauto). auto.
Qed.

Lemma lines_of_no_nl p : ~ In nl p -> p <> [] -> lines_of p = [p].
Proof.
  induction p as [|c p IH]; intros H Hn; [congruence|]. cbn [lines_of].
  destruct (Ascii.eqb_spec c nl) as [->|N]; [exfalso; apply H; simpl; auto|].
  destruct p as [|d p]; auto. rewrite IH by (simpl in *; try tauto; discriminate). auto.
Qed.

Lemma lines_of_app a b : nl_ended a -> lines_of (a ++ b) = lines_of a ++ lines_of b.
Proof.
  assert (H : forall n a, length a <= n -> nl_ended a -> lines_of (a ++ b) = lines_of a ++ lines_of b); [|eauto].
  clear a. induction n as [|n IH]; intros a L [->|[p ->]]; auto.
  - rewrite app_length in L. simpl in L. lia.
  - destruct (in_dec ascii_dec nl p) as [I|I].
    + apply in_split in I. destruct I as (p1 & p2 & ->).
      assert (X : exists q1 q2, p1 ++ nl :: p2 = q1 ++ nl :: q2 /\ ~ In nl q1).
      { clear. induction p1 as [|c p1 IH]; [exists [], p2; simpl; auto|].
        destruct (ascii_dec c nl) as [->|N].
        - exists [], (p1 ++ nl :: p2); simpl; auto.
        - destruct IH as (q1 & q2 & E & H). exists (c :: q1), q2. simpl. rewrite E. intuition. }
      destruct X as (q1 & q2 & E & Hq). rewrite E in *. rewrite <- !app_assoc. cbn [app].
      rewrite <- !app_assoc in *. cbn [app] in *.
      rewrite (lines_of_nl_app q1) by auto. rewrite (lines_of_nl_app q1 (q2 ++ [nl])) by auto. cbn [app]. f_equal.
      specialize (IH (q2 ++ [nl])). rewrite <- app_assoc in IH. apply IH.
      * rewrite !app_length in *. simpl in *. rewrite app_length in *. simpl in *. lia.
      * right; eauto.
    + rewrite <- app_assoc. cbn [app]. rewrite !lines_of_nl_app by auto. auto.
Qed.

Lemma nl_ended_app a b : nl_ended a -> nl_ended b -> nl_ended (a ++ b).
Proof.
  intros Ha [->|[p ->]]; [rewrite app_nil_r; auto|]. right. exists (a ++ p). rewrite app_assoc; auto.
Qed.

Lemma nl_ended_concat ls : Forall nl_ended ls -> nl_ended (concat ls).
Proof. induction 1; simpl; [left; auto|]. apply nl_ended_app; auto. Qed.

Lemma lines_of_concat_ended ls : Forall nl_ended ls -> lines_of (concat ls) = flat_map lines_of ls.
Proof. induction 1; simpl; auto. rewrite lines_of_app by auto. congruence. Qed.

(** All lines of a newline-ended buffer are newline-ended. *)
Lemma lines_of_ended b : nl_ended b -> Forall nl_ended (lines_of b).
Proof.
  intros H. assert (G : forall n b, length b <= n -> nl_ended b -> Forall nl_ended (lines_of b)); [|eauto].
  clear b H. induction n as [|n IH]; intros b L H.
  - destruct b; simpl in *; [constructor|lia].
  - destruct (in_dec ascii_dec nl b) as [I|I].
    + assert (X : exists q1 q2, b = q1 ++ nl :: q2 /\ ~ In nl q1).
      { clear -I. induction b as [|c b IH]; [contradiction|].
        destruct (ascii_dec c nl) as [->|N].
        - exists [], b; simpl; auto.
        - destruct I as [I|I]; [congruence|]. destruct (IH I) as (q1 & q2 & -> & H).
          exists (c :: q1), q2. simpl. intuition. }
      destruct X as (q1 & q2 & -> & Hq). rewrite lines_of_nl_app by auto.
      constructor; [right; eauto|]. apply IH.
      * rewrite app_length in L. simpl in L. lia.
      * destruct H as [H|[p E]]; [destruct q1; discriminate|].
        destruct q2 as [|c q2]; [left; auto|]. right.
        destruct (exists_last (l := c :: q2)) as (q' & z & E2); [discriminate|].
        rewrite E2 in *. rewrite app_comm_cons, app_assoc in E. apply app_inj_tail in E.
        destruct E as [_ ->]. eauto.
    + destruct H as [->|[p ->]]; [constructor|]. exfalso. apply I. apply in_or_app. simpl; auto.
Qed.
