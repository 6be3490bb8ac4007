(** How many copies of a message a component gets when subjects have wildcards.

    NATS as in Nats.v, with subjects that match as in Subjects.v: every plain subscription that matches gets the
    message, also when several of them belong to the same connection; of all the members of a queue group that match -
    with whatever subject they subscribed - one gets it (gnatsd, server/sublist.go Match: results are collected by queue
    name over all the subjects that match). *)
From Coq Require Import ListDec.
From Verif Require Import Base Subjects Nats.
Local Open Scope nat_scope.

(** The subscription [i] gets the message [p]. *)
Definition wtakes (subs : list subscription) (p : pub) (i : nat) : bool :=
  match nth_error subs i with
  | Some s => subject_match (sn_subject s) (pb_subject p) && match sn_group s with None => true | Some g => Nat.eqb (pb_pick p g) i end
  | None => false
  end.
(** Subscription [i] is a member of the group [g] and its subject matches the message's. *)
Definition wmember (subs : list subscription) (subject g : bytes) (i : nat) : Prop :=
  exists s, nth_error subs i = Some (Subn s (Some g)) /\ subject_gets s subject.
Definition wpicks (subs : list subscription) (p : pub) : Prop :=
  forall g, (exists i, wmember subs (pb_subject p) g i) -> wmember subs (pb_subject p) g (pb_pick p g).

(** How many of the subscriptions [ids] get the message. *)
Definition copies (subs : list subscription) (p : pub) (ids : list nat) : nat := length (filter (wtakes subs p) ids).

Lemma wtakes_iff subs p i : wtakes subs p i = true <->
  exists s, nth_error subs i = Some s /\ subject_gets (sn_subject s) (pb_subject p) /\ match sn_group s with None => True | Some g => pb_pick p g = i end.
Proof.
  unfold wtakes. destruct (nth_error subs i) as [s|].
  - rewrite andb_true_iff, subject_match_iff. split.
    + intros [A B]. exists s. split; [reflexivity|]. split; [exact A|]. destruct (sn_group s); [apply Nat.eqb_eq in B; exact B|exact I].
    + intros (x & X & A & B). injection X as <-. split; [exact A|]. destruct (sn_group s); [apply Nat.eqb_eq; exact B|reflexivity].
  - split; [discriminate|intros (x & X & _); discriminate X].
Qed.

(** Without queue group: one copy for each subject that matches. *)
Lemma plain_copies subs p : forall ids subjects, map (nth_error subs) ids = map (fun s => Some (Subn s None)) subjects ->
  copies subs p ids = length (filter (fun s => subject_match s (pb_subject p)) subjects).
Proof.
  unfold copies. induction ids as [|i ids IH]; intros [|s subjects] E; try discriminate E; [reflexivity|]. cbn [map] in E. injection E as E1 E2. cbn [filter].
  assert (W : wtakes subs p i = subject_match s (pb_subject p)) by (unfold wtakes; rewrite E1; cbn [sn_subject sn_group]; apply andb_true_r).
  rewrite W. destruct (subject_match s (pb_subject p)); cbn [length]; rewrite (IH _ E2); reflexivity.
Qed.

(** All the members of a queue group together. *)
Lemma group_copies subs p g ids : wpicks subs p -> NoDup ids -> (forall i, In i ids <-> exists s, nth_error subs i = Some (Subn s (Some g))) ->
  (copies subs p ids = 1 /\ exists i, In i ids /\ wmember subs (pb_subject p) g i) \/ (copies subs p ids = 0 /\ forall i, In i ids -> ~ wmember subs (pb_subject p) g i).
Proof.
  intros P Nd Hi.
  assert (M : forall i, In i ids -> (wtakes subs p i = true <-> wmember subs (pb_subject p) g i /\ pb_pick p g = i)).
  { intros i H. apply Hi in H. destruct H as (s & E). rewrite wtakes_iff. split.
    - intros (x & X & A & B). rewrite E in X. injection X as <-. cbn [sn_subject sn_group] in *. split; [exists s; auto|exact B].
    - intros ((s' & E' & A) & B). exists (Subn s' (Some g)). auto. }
  destruct (in_dec Nat.eq_dec (pb_pick p g) ids) as [H|H]; [destruct (wtakes subs p (pb_pick p g)) eqn:W|].
  - left. split; [|exists (pb_pick p g); split; [exact H|]; apply M; assumption].
    apply (nodup_single _ (pb_pick p g)); auto. intros x Hx Tx. apply M in Tx; [|exact Hx]. symmetry. apply Tx.
  - right. assert (N : forall i, In i ids -> ~ wmember subs (pb_subject p) g i).
    { intros i _ Hm. assert (X : wtakes subs p (pb_pick p g) = true) by (apply M; [exact H|]; split; [apply P; exists i; exact Hm|reflexivity]). rewrite X in W. discriminate W. }
    split; [|exact N]. unfold copies. assert (E : filter (wtakes subs p) ids = []); [|rewrite E; reflexivity].
    clear - M N. induction ids as [|i ids IH]; [reflexivity|]. cbn [filter]. destruct (wtakes subs p i) eqn:W.
    + exfalso. apply (M i) in W; [|left; reflexivity]. apply (N i); [left; reflexivity|]. apply W.
    + apply IH; intros j Hj; [apply M|apply N]; right; exact Hj.
  - right. assert (N : forall i, In i ids -> ~ wmember subs (pb_subject p) g i).
    { intros i _ Hm. apply H. apply Hi. destruct (P g (ex_intro _ i Hm)) as (s & E & _). exists s. exact E. }
    split; [|exact N]. unfold copies. assert (E : filter (wtakes subs p) ids = []); [|rewrite E; reflexivity].
    clear - M N. induction ids as [|i ids IH]; [reflexivity|]. cbn [filter]. destruct (wtakes subs p i) eqn:W.
    + exfalso. apply (M i) in W; [|left; reflexivity]. apply (N i); [left; reflexivity|]. apply W.
    + apply IH; intros j Hj; [apply M|apply N]; right; exact Hj.
Qed.

(** At most one element of a list satisfies [f]. *)
Lemma filter_at_most {A} (f : A -> bool) l : length (filter f l) <= 1 <->
  forall i j a b, nth_error l i = Some a -> nth_error l j = Some b -> f a = true -> f b = true -> i = j.
Proof.
  induction l as [|x l IH].
  - split; [intros _ i j a b H; destruct i; discriminate H|cbn; lia].
  - assert (Zero : length (filter f l) = 0 <-> forall i a, nth_error l i = Some a -> f a = false).
    { clear. induction l as [|y l IH]; cbn [filter].
      - split; [intros _ i a H; destruct i; discriminate H|reflexivity].
      - destruct (f y) eqn:F.
        + split; [discriminate|]. intros H. specialize (H 0 y eq_refl). congruence.
        + rewrite IH. split; [intros H [|i] a E; [injection E as <-; exact F|exact (H i a E)]|intros H i a E; exact (H (S i) a E)]. }
    cbn [filter]. destruct (f x) eqn:F; cbn [length].
    + assert (S1 : S (length (filter f l)) <= 1 <-> length (filter f l) = 0) by lia. rewrite S1, Zero. split.
      * intros H [|i] [|j] a b Ei Ej Fa Fb; auto; cbn [nth_error] in *; exfalso; [rewrite (H j b Ej) in Fb|rewrite (H i a Ei) in Fa|rewrite (H i a Ei) in Fa]; discriminate.
      * intros H i a E. destruct (f a) eqn:Fa; [|reflexivity]. specialize (H 0 (S i) x a eq_refl E F Fa). discriminate H.
    + rewrite IH. split.
      * intros H [|i] [|j] a b Ei Ej Fa Fb; auto; cbn [nth_error] in *; [injection Ei as <-; congruence|injection Ej as <-; congruence|f_equal; eauto].
      * intros H i j a b Ei Ej Fa Fb. specialize (H (S i) (S j) a b Ei Ej Fa Fb). congruence.
Qed.

(** Two of the subjects have a message in common. *)
Definition overlap (subjects : list bytes) : Prop :=
  exists i j p q subject, i <> j /\ nth_error subjects i = Some p /\ nth_error subjects j = Some q /\ subject_gets p subject /\ subject_gets q subject.

Lemma once_iff subs ids subjects : map (nth_error subs) ids = map (fun s => Some (Subn s None)) subjects ->
  ((forall p, copies subs p ids <= 1) <-> ~ overlap subjects).
Proof.
  intros E. split.
  - intros H (i & j & a & b & s & N & Ei & Ej & Ga & Gb). specialize (H (Pub s [] (fun _ => 0))). rewrite (plain_copies _ _ _ _ E) in H.
    apply N. apply (proj1 (filter_at_most _ subjects) H i j a b Ei Ej); apply subject_match_iff; assumption.
  - intros H p. rewrite (plain_copies _ _ _ _ E). apply filter_at_most. intros i j a b Ei Ej Fa Fb. destruct (Nat.eq_dec i j) as [X|X]; [exact X|].
    exfalso. apply H. exists i, j, a, b, (pb_subject p). apply subject_match_iff in Fa, Fb. auto 8.
Qed.

Lemma literal_overlap subjects : Forall literal subjects -> (overlap subjects <-> ~ NoDup subjects).
Proof.
  intros F. rewrite Forall_forall in F. split.
  - intros (i & j & a & b & s & N & Ei & Ej & Ga & Gb) Nd.
    apply (literal_gets a) in Ga; [|apply F; eapply nth_error_In; eauto]. apply (literal_gets b) in Gb; [|apply F; eapply nth_error_In; eauto]. subst.
    apply N. rewrite NoDup_nth_error in Nd. apply Nd; [apply nth_error_Some; congruence|congruence].
  - intros Nd. destruct (ListDec.NoDup_dec (list_eq_dec ascii_dec) subjects) as [X|X]; [contradiction|].
    clear Nd. revert X. induction subjects as [|a subjects IH]; intros X; [exfalso; apply X; constructor|].
    destruct (in_dec (list_eq_dec ascii_dec) a subjects) as [Ha|Ha].
    + apply In_nth_error in Ha. destruct Ha as (j & Ej). exists 0, (S j), a, a, a. split; [discriminate|]. split; [reflexivity|]. split; [exact Ej|].
      split; apply (literal_gets a a (F a (or_introl eq_refl))); reflexivity.
    + destruct IH as (i & j & p & q & s & N & Ei & Ej & G).
      * intros x Hx. apply F. right. exact Hx.
      * intros Y. apply X. constructor; assumption.
      * exists (S i), (S j), p, q, s. split; [congruence|auto].
Qed.
