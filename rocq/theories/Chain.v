(** Filters in series: what a second filter does with the messages of a first one. *)
From Verif Require Import Base Text TextSpec TextProofs NumSpec LinesSpec Rules RulesSpec RulesProofs RouteProofs FilterWorker FilterSpec FilterProofs EndToEndProofs.
Local Open Scope Z_scope.

(** ** Specification *)

(** A line that survives being written again: terminated; if the parser accepts it at all, it has fields, and its names
    and tags are ones the line protocol can express (C26). *)
Definition well_formed (line : bytes) : Prop :=
  (exists p, ~ In nl p /\ line = p ++ [nl]) /\
  forall m tags rest, ParseTags line = POk m tags rest -> rest <> [] /\ good_measurement m /\ Forall good_tag tags.

(** What a filter with rules [rs], window [delta] and clock [now] is meant to do with a line [l] that stands for measurement
    [m] and tags [tags]: drop it when its time is outside the window, otherwise forward exactly [l] to the first rule that is
    meant to match, or to junk. *)
Inductive meant_fate (rs : list rule) (now delta : Z) (m : bytes) (tags : list tag) (l : bytes) : fate -> Prop :=
| mf_time ts : line_time now l ts -> ~ (now - delta < ts < now + delta) -> meant_fate rs now delta m tags l FateInvalidTime
| mf_rule ts i : line_time now l ts -> now - delta < ts < now + delta ->
    first_such (fun r => means (r_match r) m tags l) rs (Some i) -> meant_fate rs now delta m tags l (FateRule i l)
| mf_junk ts : line_time now l ts -> now - delta < ts < now + delta ->
    first_such (fun r => means (r_match r) m tags l) rs None -> meant_fate rs now delta m tags l (FateJunk l).

(** [l] says the same as [src]: same measurement, same tags (in order of their keys), same fields and time. *)
Definition same_point (src l : bytes) : Prop :=
  exists m tags tags' rest, ParseTags src = POk m tags rest /\ Permutation tags tags' /\ keys_sorted tags' /\ ParseTags l = POk m tags' rest.

(** ** Proofs *)

Lemma first_such_ext {A} (P Q : A -> Prop) l o : (forall a, In a l -> (P a <-> Q a)) -> first_such P l o -> first_such Q l o.
Proof.
  intros H. destruct o as [i|]; cbn [first_such].
  - intros [(a & Ha & Pa) F]. split; [exists a; split; [exact Ha|apply H; [eapply nth_error_In; eauto|exact Pa]]|].
    intros j b Hj Hb Qb. apply (F j b Hj Hb). apply H; [eapply nth_error_In; eauto|exact Qb].
  - intros F a Ia Qa. apply (F a Ia). apply H; auto.
Qed.

Lemma means_perm k m tags tags' l : Permutation tags tags' -> (means k m tags' l <-> means k m tags l).
Proof.
  intros P. destruct k; cbn [means]; try reflexivity. split; intros I x Hx.
  - eapply Permutation_in; [apply Permutation_sym; exact P|]. apply I. exact Hx.
  - eapply Permutation_in; [exact P|]. apply I. exact Hx.
Qed.

(** One emitted text. *)
Definition derived (src l : bytes) : Prop :=
  exists m tags tags' rest, ParseTags src = POk m tags rest /\ Permutation tags tags' /\ keys_sorted tags' /\ ParseTags l = POk m tags' rest /\
    exists q, ~ In nl q /\ l = q ++ [nl].

Lemma emitted_derived now delta right src f : well_formed src -> line_fate now delta right src f -> fate_text f <> [] -> derived src (fate_text f).
Proof.
  intros ((p & Np & ->) & W) L Ne.
  assert (G : forall m tags rest text, ParseTags (p ++ [nl]) = POk m tags rest -> sorted_text (p ++ [nl]) m tags rest text -> derived (p ++ [nl]) text).
  { intros m tags rest text P (tags' & Pm & K & S1 & S2). destruct (W _ _ _ P) as (Wr & Wm & Wt).
    destruct (keys_sorted_dec tags) as [Ks|Ks].
    - rewrite (S1 Ks). exists m, tags, tags, rest. repeat (split; [auto|]). exists p. auto.
    - specialize (S2 Ks). destruct rest as [|x rest]; [congruence|]. subst text. exists m, tags, tags', (x :: rest). split; [exact P|]. split; [exact Pm|]. split; [exact K|]. split.
      + apply ParseTags_render; auto. eapply Permutation_Forall; eauto.
      + eapply resorted_line; eauto. }
  inversion L as [ts T Wd E|ts T Wd P E|ts m tags rest text i T Wd P Sx R E|ts m tags rest text T Wd P Sx R E]; subst f; cbn [fate_text] in *; try congruence; eauto.
Qed.

(** The lines of the messages are the texts of the fates. *)
Lemma texts_in (g : fate -> bytes) fs : (forall f, In f fs -> g f = [] \/ (exists q, ~ In nl q /\ g f = q ++ [nl])) ->
  nl_ended (flat_map g fs) /\ forall l, In l (lines_of (flat_map g fs)) -> exists f, In f fs /\ l = g f.
Proof.
  induction fs as [|f fs IH]; intros H; [split; [left; reflexivity|intros l []]|]. destruct IH as [E I0]; [intros f0 Hf; apply H; right; exact Hf|].
  cbn [flat_map]. destruct (H f (or_introl eq_refl)) as [->|(q & Nq & Eq)].
  - cbn [app]. split; [exact E|]. intros l Hl. destruct (I0 l Hl) as (f0 & Hf & El). exists f0. split; [right; exact Hf|exact El].
  - rewrite Eq. split; [apply nl_ended_app; [right; exists q; reflexivity|exact E]|].
    intros l Hl. rewrite <- app_assoc in Hl. cbn [app] in Hl. rewrite lines_of_nl_app in Hl by exact Nq. destruct Hl as [<-|Hl].
    + exists f. split; [left; reflexivity|symmetry; exact Eq].
    + destruct (I0 l Hl) as (f0 & Hf & El). exists f0. split; [right; exact Hf|exact El].
Qed.

Lemma first_filter gs c oks now batch s d : sorts gs -> int64 (now - fc_delta c) -> int64 (now + fc_delta c) -> Forall well_formed (lines_of batch) ->
  In (s, d) (published (snd (processBatch gs c oks now (newFilterWorker c) batch))) ->
  nl_ended d /\ d <> [] /\ forall l, In l (lines_of d) -> exists src, In src (lines_of batch) /\ derived src l.
Proof.
  intros GS B1 B2 W I0. destruct (routing gs c oks now batch GS B1 B2) as (fs & F & Pub). rewrite Pub in I0. clear Pub.
  assert (Fd : forall f, In f fs -> fate_text f = [] \/ exists src, In src (lines_of batch) /\ derived src (fate_text f)).
  { clear I0. revert W. generalize (lines_of batch) F. clear. intros ls F. induction F as [|l f ls fs L F IH]; intros W f0 Hf; [destruct Hf|].
    inversion W as [|? ? W1 W2]; subst. destruct Hf as [<-|Hf].
    - destruct (fate_text f) as [|x t] eqn:Et; [left; reflexivity|right]. exists l. split; [left; reflexivity|]. rewrite <- Et.
      eapply emitted_derived; eauto. congruence.
    - destruct (IH W2 f0 Hf) as [X|(src & Hs & D)]; [left; exact X|right]. exists src. split; [right; exact Hs|exact D]. }
  unfold outputs in I0. apply filter_In in I0. destruct I0 as [I0 Nd]. cbn [snd] in Nd.
  assert (G : forall g, (forall f, In f fs -> g f = [] \/ g f = fate_text f) -> d = flat_map g fs ->
    nl_ended d /\ d <> [] /\ forall l, In l (lines_of d) -> exists src, In src (lines_of batch) /\ derived src l).
  { intros g Hg Ed. destruct (texts_in g fs) as [E1 E2].
    { intros f Hf. destruct (Hg f Hf) as [X|X]; [left; exact X|]. destruct (Fd f Hf) as [Y|(src & _ & m & tags & tags' & rest & _ & _ & _ & _ & q & Nq & Eq)]; [left; congruence|].
      right. exists q. split; [exact Nq|congruence]. }
    rewrite Ed in *. split; [exact E1|]. split; [intros X; rewrite X in Nd; discriminate|].
    intros l Hl. destruct (E2 l Hl) as (f & Hf & El). pose proof (lines_of_nonempty _ _ Hl) as Nl.
    destruct (Hg f Hf) as [X|X]; [congruence|]. destruct (Fd f Hf) as [Y|(src & Hs & D)]; [congruence|]. exists src. split; [exact Hs|]. rewrite El, X. exact D. }
  apply in_app_iff in I0. destruct I0 as [I0|[I0|[]]].
  - apply in_map_iff in I0. destruct I0 as ([i r] & Ei & _). injection Ei as _ <-. eapply G; [|reflexivity].
    intros [j t|t| |] _; cbn [fate_text]; auto. destruct (Nat.eqb j i); auto.
  - injection I0 as _ <-. eapply G; [|reflexivity]. intros [j t|t| |] _; cbn [fate_text]; auto.
Qed.

Lemma second_filter gs c1 c2 oks1 now1 oks2 now2 batch s d : sorts gs ->
  int64 (now1 - fc_delta c1) -> int64 (now1 + fc_delta c1) -> int64 (now2 - fc_delta c2) -> int64 (now2 + fc_delta c2) ->
  Forall well_formed (lines_of batch) ->
  (forall line m tags rest, In line (lines_of batch) -> ParseTags line = POk m tags rest -> no_collision (fc_rules c2) m) ->
  In (s, d) (published (snd (processBatch gs c1 oks1 now1 (newFilterWorker c1) batch))) ->
  exists fs, published (snd (processBatch gs c2 oks2 now2 (newFilterWorker c2) d)) = outputs (fc_rules c2) (fc_junk c2) fs /\
    Forall2 (fun l f => exists line m tags rest, In line (lines_of batch) /\ ParseTags line = POk m tags rest /\ same_point line l /\
      meant_fate (fc_rules c2) now2 (fc_delta c2) m tags l f) (lines_of d) fs.
Proof.
  intros GS A1 A2 B1 B2 W NC I0. destruct (first_filter gs c1 oks1 now1 batch s d GS A1 A2 W I0) as (_ & _ & D).
  assert (C : Forall (clean (fc_rules c2)) (lines_of d)).
  { apply Forall_forall. intros l Hl. destruct (D l Hl) as (src & Hs & m & tags & tags' & rest & P & Pm & K & P' & _).
    intros m0 tags0 rest0 P0. rewrite P' in P0. injection P0 as <- <- <-. split; [eapply NC; eauto|]. left. left. exact K. }
  destruct (routing_right gs c2 oks2 now2 d GS B1 B2 C) as (fs & F & Pub). exists fs. split; [exact Pub|]. clear Pub C I0.
  revert D. induction F as [|l f ls fs L F IH]; intros D; [constructor|]. constructor; [|apply IH; intros l0 Hl; apply D; right; exact Hl].
  destruct (D l (or_introl eq_refl)) as (src & Hs & m & tags & tags' & rest & P & Pm & K & P' & _). exists src, m, tags, rest. split; [exact Hs|]. split; [exact P|].
  split; [exists m, tags, tags', rest; auto|].
  assert (Tx : forall m0 tags0 rest0 text o, ParseTags l = POk m0 tags0 rest0 -> sorted_text l m0 tags0 rest0 text -> first_rule (fc_rules c2) l m0 tags0 text o ->
    text = l /\ first_such (fun r => means (r_match r) m tags l) (fc_rules c2) o).
  { intros m0 tags0 rest0 text o P0 (_ & _ & _ & S1 & _) R. rewrite P' in P0. injection P0 as <- <- <-. specialize (S1 K). subst text. split; [reflexivity|].
    eapply first_such_ext; [|exact R]. intros r _. apply means_perm. exact Pm. }
  inversion L as [ts T Wd E|ts T Wd P0 E|ts m0 tags0 rest0 text i T Wd P0 Sx R E|ts m0 tags0 rest0 text T Wd P0 Sx R E]; subst f.
  - eapply mf_time; eauto.
  - congruence.
  - destruct (Tx _ _ _ _ _ P0 Sx R) as [-> R']. eapply mf_rule; eauto.
  - destruct (Tx _ _ _ _ _ P0 Sx R) as [-> R']. eapply mf_junk; eauto.
Qed.
