(** Subscriptions and message distribution.

    NATS is not part of the repository; this is what its documentation promises and what the components rely on: a
    message goes to every plain subscription of its subject and to one member of every queue group on its subject.
    Subjects are compared literally (no wildcards).  Messages dropped by NATS (slow consumers) are not modelled. *)
From Verif Require Import Base.
Local Open Scope nat_scope.

(** A subscription: subject, and queue group if any (nats.Subscribe, nats.QueueSubscribe). *)
Record subscription := Subn { sn_subject : bytes; sn_group : option bytes }.

(** filter/filter.go:86-95: the queue group of the filters. *)
Definition filter_sub (subject : bytes) : subscription := Subn subject (Some (lit "filter")).

(** writer/writer.go:93-112: one subscription per configured subject; a queue group if one is configured. *)
Definition writer_subs (subjects : list bytes) (group : bytes) : list subscription :=
  map (fun s => Subn s (match group with [] => None | _ => Some group end)) subjects.

(** A published message, and the member (index of a subscription) that each queue group gives it to. *)
Record pub := Pub { pb_subject : bytes; pb_data : bytes; pb_pick : bytes -> nat }.

(** The subscription [i] gets the message [p]. *)
Definition takes (subs : list subscription) (p : pub) (i : nat) : bool :=
  match nth_error subs i with
  | Some s => beqs (sn_subject s) (pb_subject p) && match sn_group s with None => true | Some g => Nat.eqb (pb_pick p g) i end
  | None => false
  end.

(** What a subscription is given, in order. *)
Definition inbox (subs : list subscription) (pubs : list pub) (i : nat) : list bytes :=
  map pb_data (filter (fun p => takes subs p i) pubs).

(** A queue group with members on the subject gives the message to one of them. *)
Definition member (subs : list subscription) (subject g : bytes) (i : nat) : Prop := nth_error subs i = Some (Subn subject (Some g)).
Definition picks_member (subs : list subscription) (p : pub) : Prop :=
  forall g, (exists i, member subs (pb_subject p) g i) -> member subs (pb_subject p) g (pb_pick p g).

(** The messages published on a subject. *)
Definition on (subject : bytes) (pubs : list pub) : list bytes :=
  map pb_data (filter (fun p => beqs (pb_subject p) subject) pubs).

(* ------------------------------------------------------------------ *)

Lemma perm_swap_flat {A B C} (f : A -> B -> list C) (la : list A) (lb : list B) :
  Permutation (flat_map (fun a => flat_map (f a) lb) la) (flat_map (fun b => flat_map (fun a => f a b) la) lb).
Proof.
  induction la as [|a la IH]; cbn [flat_map].
  - induction lb; auto.
  - eapply perm_trans; [apply Permutation_app_head; exact IH|]. clear IH. induction lb as [|b lb IH]; auto. cbn [flat_map].
    rewrite <- !app_assoc. apply Permutation_app_head. eapply perm_trans; [|apply Permutation_app_head; exact IH].
    rewrite !app_assoc. apply Permutation_app_tail. apply Permutation_app_comm.
Qed.

Lemma map_filter_flat {A B} (f : A -> B) (p : A -> bool) l : map f (filter p l) = flat_map (fun x => if p x then [f x] else []) l.
Proof. induction l as [|x l IH]; auto. cbn [filter flat_map]. destruct (p x); cbn [map app]; rewrite IH; auto. Qed.

Lemma perm_flat_pointwise {A B} (f g : A -> list B) l : (forall x, In x l -> Permutation (f x) (g x)) -> Permutation (flat_map f l) (flat_map g l).
Proof. induction l as [|x l IH]; intros H; auto. cbn [flat_map]. apply Permutation_app; [apply H; left; auto|apply IH; intros y Hy; apply H; right; auto]. Qed.

(** The inboxes [ids] together take every message on the [subjects], each once. *)
Lemma inboxes subs pubs ids subjects :
  (forall p, In p pubs -> length (filter (takes subs p) ids) = length (filter (fun s => beqs (pb_subject p) s) subjects)) ->
  Permutation (flat_map (inbox subs pubs) ids) (flat_map (fun s => on s pubs) subjects).
Proof.
  intros H.
  erewrite (flat_map_ext (inbox subs pubs)) by (intros i; unfold inbox; rewrite map_filter_flat; reflexivity).
  erewrite (flat_map_ext (fun s => on s pubs)) by (intros s; unfold on; rewrite map_filter_flat; reflexivity).
  eapply perm_trans; [apply perm_swap_flat|]. eapply perm_trans; [|apply Permutation_sym; apply perm_swap_flat].
  apply perm_flat_pointwise. intros p Hp. pose proof (H p Hp) as L.
  rewrite <- !(map_filter_flat (fun _ => pb_data p)).
  assert (X : forall A (l : list A), map (fun _ => pb_data p) l = repeat (pb_data p) (length l)) by (induction l as [|x l IH]; cbn; congruence).
  rewrite !X, L. apply Permutation_refl.
Qed.

Lemma takes_spec subs p i : takes subs p i = true <->
  exists s, nth_error subs i = Some s /\ sn_subject s = pb_subject p /\ match sn_group s with None => True | Some g => pb_pick p g = i end.
Proof.
  unfold takes. destruct (nth_error subs i) as [s|]; [|split; [discriminate|intros (x & X & _); discriminate]].
  rewrite andb_true_iff, beqs_eq. destruct (sn_group s) as [g|] eqn:Eg.
  - rewrite Nat.eqb_eq. split; [intros [A B]; exists s; rewrite Eg; auto|intros (x & X & A & B); inversion X; subst; rewrite Eg in B; auto].
  - split; [intros [A _]; exists s; rewrite Eg; auto|intros (x & X & A & _); inversion X; subst; auto].
Qed.

(** Plain subscriptions, one per subject. *)
Lemma plain_length subs p : forall ids subjects, map (nth_error subs) ids = map (fun s => Some (Subn s None)) subjects ->
  length (filter (takes subs p) ids) = length (filter (fun s => beqs (pb_subject p) s) subjects).
Proof.
  induction ids as [|i ids IH]; intros [|s subjects] E; try discriminate; auto. cbn [map] in E. inversion E as [[E1 E2]].
  cbn [filter]. specialize (IH _ E2).
  assert (X : takes subs p i = beqs (pb_subject p) s).
  { apply eq_true_iff_eq. rewrite takes_spec, beqs_eq, E1. split.
    - intros (x & X & A & _). inversion X; subst. cbn in A. auto.
    - intros <-. eexists. split; [reflexivity|]. cbn. auto. }
  rewrite X. destruct (beqs _ _); cbn [length]; congruence.
Qed.

Lemma nodup_count (l : list bytes) x : NoDup l -> length (filter (fun s => beqs x s) l) = if existsb (beqs x) l then 1 else 0.
Proof.
  induction 1 as [|y l N Nd IH]; auto. cbn [filter existsb]. destruct (beqs x y) eqn:E.
  - apply beqs_eq in E. subst y. cbn [length orb]. rewrite IH. destruct (existsb (beqs x) l) eqn:X; auto.
    apply existsb_exists in X. destruct X as (z & Hz & Ez). apply beqs_eq in Ez. subst. contradiction.
  - exact IH.
Qed.

Lemma nodup_single {A} (f : A -> bool) (a : A) l : NoDup l -> (forall x, In x l -> f x = true -> x = a) -> In a l -> f a = true -> length (filter f l) = 1.
Proof.
  intros Nd. induction Nd as [|y l N Nd IH]; intros H I F; [destruct I|]. cbn [filter]. destruct I as [->|I].
  - rewrite F. cbn [length]. f_equal. assert (X : filter f l = []).
    { clear - N H. induction l as [|z l IH]; auto. cbn [filter]. destruct (f z) eqn:E.
      - assert (z = a) by (apply H; [right; left; auto|auto]). subst. exfalso. apply N. left; auto.
      - apply IH; [intros X; apply N; right; auto|]. intros x Hx. apply H. destruct Hx; [left; auto|right; right; auto]. }
    rewrite X. auto.
  - destruct (f y) eqn:E.
    + assert (y = a) by (apply H; [left; auto|auto]). subst. contradiction.
    + apply IH; auto. intros x Hx. apply H. right; auto.
Qed.

(** All members of a queue group. *)
Lemma group_length subs p g ids subjects : picks_member subs p -> NoDup subjects -> NoDup ids ->
  (forall i, In i ids <-> exists s, In s subjects /\ member subs s g i) ->
  (forall s, In s subjects -> exists i, member subs s g i) ->
  length (filter (takes subs p) ids) = length (filter (fun s => beqs (pb_subject p) s) subjects).
Proof.
  intros Pk Ns Ni Hi He. rewrite nodup_count by auto.
  destruct (existsb (beqs (pb_subject p)) subjects) eqn:E.
  - apply existsb_exists in E. destruct E as (s & Hs & E). apply beqs_eq in E. subst s.
    pose proof (Pk g (He _ Hs)) as M. apply (nodup_single _ (pb_pick p g)); auto.
    + intros x Hx T. apply Hi in Hx. destruct Hx as (s & Hs' & M'). apply takes_spec in T. destruct T as (sb & N & _ & T).
      unfold member in M'. rewrite M' in N. inversion N; subst. cbn in T. auto.
    + apply Hi. eauto.
    + apply takes_spec. eexists. split; [exact M|]. cbn. auto.
  - assert (X : filter (takes subs p) ids = []); [|rewrite X; auto].
    apply not_true_iff_false in E. assert (Hx : forall i, In i ids -> takes subs p i = false).
    { intros i I. apply not_true_iff_false. intros T. apply E. apply existsb_exists. apply Hi in I. destruct I as (s & Hs & M). exists s. split; auto.
      apply takes_spec in T. destruct T as (sb & N & Es & _). unfold member in M. rewrite M in N. inversion N; subst. cbn in Es. subst. apply beqs_refl. }
    clear - Hx. induction ids as [|i ids IH]; auto. cbn [filter]. rewrite Hx by (left; auto). apply IH. intros; apply Hx; right; auto.
Qed.

Lemma inbox_plain subs pubs i s : nth_error subs i = Some (Subn s None) -> inbox subs pubs i = on s pubs.
Proof.
  intros N. unfold inbox, on. f_equal. apply filter_ext. intros p. apply eq_true_iff_eq. rewrite takes_spec, beqs_eq. split.
  - intros (x & X & A & _). rewrite N in X. inversion X; subst. auto.
  - intros <-. eexists. split; [exact N|]. cbn. auto.
Qed.
