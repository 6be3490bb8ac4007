(** Property C120 (properties.jsonl): components can be added and removed without disturbing the flow of data to the others. *)
From Verif Require Import Base Subjects Endpoints.
Local Open Scope nat_scope.

(** Monitors, taps, downsamplers and writers without queue group share their messages with no other component. *)
Theorem C120_alone : forall e, alone e <->
  match e with Monitor _ | Tap _ | Downsampler _ => True | Writer ss g => ss = [] \/ g = [] | Filter _ => False end.
Proof.
  intros e. unfold alone. destruct e as [s|ss g|ss|s|s]; cbn [subs].
  - split; [|intros []]. intros H. discriminate (H s _ (or_introl eq_refl)).
  - split.
    + destruct ss as [|s ss]; [auto|]. destruct g as [|c g]; [auto|]. intros H. discriminate (H s _ (or_introl eq_refl)).
    + intros [->| ->] s g' H; [destruct H|]. apply in_map_iff in H. destruct H as (x & H & _). injection H as _ <-. reflexivity.
  - split; [auto|]. intros _ s g H. apply in_map_iff in H. destruct H as (x & H & _). injection H as _ <-. reflexivity.
  - split; [auto|]. intros _ a g [H|[]]. injection H as _ <-. reflexivity.
  - split; [auto|]. intros _ a g [H|[]]. injection H as _ <-. reflexivity.
Qed.
Print Assumptions C120_alone.

(** Such a component receives every message published while it runs whose subject is one of its own, once for each of these subjects,
    in order - whatever other components run, come and go, and whatever the broker chooses. *)
Theorem C120_lone : forall i h, starts_alone i h -> received i nobody h = expected i None (flat_map (concerns i) h).
Proof. intros i h H. apply received_alone; [discriminate|exact H]. Qed.
Print Assumptions C120_lone.

(** So two histories in which the same is published and it is started and stopped at the same places give it the same messages. *)
Theorem C120_same_lone : forall i h h', starts_alone i h -> starts_alone i h' ->
  flat_map (concerns i) h = flat_map (concerns i) h' -> received i nobody h = received i nobody h'.
Proof. intros i h h' A B E. rewrite !C120_lone by assumption. rewrite E. reflexivity. Qed.
Print Assumptions C120_same_lone.

(** What an added component publishes reaches it only if one of its subjects matches. *)
Theorem C120_published : forall i h subject, starts_alone i h ->
  (forall x p g, In (Start i x) h -> In (p, g) (subs x) -> ~ subject_gets p subject) ->
  received i nobody (filter (fun e => match e with Publish s _ _ => negb (beqs s subject) | _ => true end) h) = received i nobody h.
Proof.
  intros i h subject A Hs.
  assert (A' : starts_alone i (filter (fun e => match e with Publish s _ _ => negb (beqs s subject) | _ => true end) h)).
  { intros x Hx. apply filter_In in Hx. apply A. apply Hx. }
  rewrite !C120_lone by assumption. symmetry.
  assert (E : flat_map (concerns i) (filter (fun e => match e with Publish s _ _ => negb (beqs s subject) | _ => true end) h) =
              filter (fun c => match c with CPublish s' _ => negb (beqs s' subject) | _ => true end) (flat_map (concerns i) h)).
  { clear. induction h as [|e h IH]; [reflexivity|]. destruct e as [id x|id|s d pick]; cbn [filter flat_map concerns].
    - destruct (Nat.eqb i id); cbn [app filter]; rewrite IH; reflexivity.
    - destruct (Nat.eqb i id); cbn [app filter]; rewrite IH; reflexivity.
    - cbn [app filter]. destruct (beqs s subject); cbn [negb flat_map concerns app filter]; rewrite IH; reflexivity. }
  rewrite E. apply expected_skip; [discriminate|].
  intros x Hx p g Hg. destruct (subject_match p subject) eqn:M; [|reflexivity]. exfalso.
  apply subject_match_iff in M. revert M. apply (Hs x p g); [|exact Hg].
  apply in_flat_map in Hx. destruct Hx as (e & He & Hc). destruct e as [id y|id|s d pick]; cbn [concerns] in Hc.
  - destruct (Nat.eqb_spec i id) as [->|]; [|destruct Hc]. destruct Hc as [Hc|[]]. injection Hc as ->. exact He.
  - destruct (Nat.eqb i id); [destruct Hc as [Hc|[]]; discriminate|destruct Hc].
  - destruct Hc as [Hc|[]]. discriminate.
Qed.
Print Assumptions C120_published.

(** Queue groups: while a group has a member for a subject, each message on it goes to exactly one of them, once, however the
    members change. *)
Theorem C120_group : forall h pre s d pick post, honest nobody h -> h = pre ++ Publish s d pick :: post ->
  forall g, (exists i k, member (after nobody pre) g s i k) ->
  exists i k, member (after nobody pre) g s i k /\ In (k, s, d) (gets i (after nobody pre) (Publish s d pick)) /\
    forall i' k', member (after nobody pre) g s i' k' -> In (k', s, d) (gets i' (after nobody pre) (Publish s d pick)) -> (i', k') = (i, k).
Proof.
  intros h pre s d pick post Hh -> g He.
  pose proof (honest_at _ _ _ _ _ _ Hh g He) as Hm.
  exists (fst (pick g)), (snd (pick g)). split; [exact Hm|]. split.
  - apply (group_gets _ g _ _ _ _ _ Hm). destruct (pick g); reflexivity.
  - intros i' k' Hm' Hi. apply (group_gets _ g _ _ _ _ _ Hm') in Hi. rewrite Hi. reflexivity.
Qed.
Print Assumptions C120_group.

(** Where a message goes in a history is what [received] records. *)
Theorem C120_received : forall i pre s d pick post,
  received i nobody (pre ++ Publish s d pick :: post) =
    received i nobody pre ++ gets i (after nobody pre) (Publish s d pick) ++ received i (after nobody pre) post.
Proof. intros. rewrite received_app. reflexivity. Qed.
Print Assumptions C120_received.

(** A component [j] which shares no queue group with another on a common subject can be taken out of a history (or put into it):
    what remains is a possible history of the others, and all receive exactly the same. *)
Theorem C120_undisturbed_partial : forall j h, honest nobody h ->
  (forall s x y i, i <> j -> In (Start j x) h -> In (Start i y) h -> ~ shares x y s) ->
  honest nobody (without j h) /\ forall i, i <> j -> received i nobody (without j h) = received i nobody h.
Proof.
  intros j h Hh Hs.
  assert (S0 : same_but j nobody nobody) by (split; [reflexivity|reflexivity]).
  split.
  - apply (honest_without j h nobody nobody S0 Hh). intros s x y i Hi [Hx|Hx] [Hy|Hy]; try discriminate. exact (Hs s x y i Hi Hx Hy).
  - intros i Hi. apply received_without; [exact Hi|exact S0].
Qed.
Print Assumptions C120_undisturbed_partial.

(** Which components can do that: filters with filters on overlapping subjects, writers with writers of the same queue group, and writers
    whose queue group is called filter with filters. *)
Theorem C120_shares : forall x y s, shares x y s <->
  exists g, (exists p, In (p, Some g) (subs x) /\ subject_gets p s) /\ (exists q, In (q, Some g) (subs y) /\ subject_gets q s).
Proof.
  intros x y s. split.
  - intros (g & p & q & A & B & C & D). exists g. split; [exists p|exists q]; auto.
  - intros (g & (p & A & C) & (q & B & D)). exists g, p, q. auto.
Qed.
Print Assumptions C120_shares.
Theorem C120_lone_shares_none : forall x y s, alone x -> ~ shares x y s /\ ~ shares y x s.
Proof.
  intros x y s H. split; intros (g & p & q & A & B & _); [apply H in A|apply H in B]; discriminate.
Qed.
Print Assumptions C120_lone_shares_none.

(** False in general: a second component with a queue group of the same name on the same subject - a filter with other rules, a writer for
    another database, and a writer whose queue group is called filter next to a filter - can be given all that the first one received before. *)
Definition sent (subject : bytes) (msgs : list bytes) (to : nat) : list event := map (fun d => Publish subject d (fun _ => (to, 0))) msgs.
Lemma sent_run subject g : literal subject -> forall msgs to r x, r to = Some x -> subs x = [(subject, Some g)] ->
  (forall g' i k, member r g' subject i k -> g' = g) ->
  honest r (sent subject msgs to) /\ received to r (sent subject msgs to) = map (fun d => (0, subject, d)) msgs /\
  forall i, i <> to -> (forall y, r i = Some y -> subs y = [(subject, Some g)]) -> received i r (sent subject msgs to) = [].
Proof.
  intros Hl msgs to r x E Es Hg. assert (M : subject_gets subject subject) by (apply literal_gets; auto).
  induction msgs as [|d msgs (IH1 & IH2 & IH3)]; [split; [exact Logic.I|]; split; [reflexivity|reflexivity]|].
  change (sent subject (d :: msgs) to) with (Publish subject d (fun _ => (to, 0)) :: sent subject msgs to).
  cbn [honest received change]. split; [split; [|exact IH1]|split].
  - intros g' (i & k & Hm). rewrite (Hg g' i k Hm). cbn [fst snd]. exists x, subject. rewrite Es. auto.
  - rewrite IH2. cbn [gets map]. rewrite E, Es. cbn [hits fst snd]. rewrite (proj2 (subject_match_iff subject subject) M), Nat.eqb_refl. reflexivity.
  - intros i Hi Hy. rewrite (IH3 i Hi Hy), app_nil_r. cbn [gets]. destruct (r i) as [y|] eqn:Ey; [|reflexivity].
    rewrite (Hy y eq_refl). cbn [hits fst snd]. rewrite (proj2 (Nat.eqb_neq to i)) by congruence. cbn [andb]. rewrite Bool.andb_false_r. reflexivity.
Qed.

Theorem C120_diverted_refuted : forall subject msgs x y g, literal subject -> subs x = [(subject, Some g)] -> subs y = [(subject, Some g)] ->
  exists h h', honest nobody h /\ honest nobody h' /\ flat_map (concerns 1) h = flat_map (concerns 1) h' /\ without 2 h' = h' /\
    In (Start 2 y) h /\ received 1 nobody h' = map (fun d => (0, subject, d)) msgs /\ received 1 nobody h = [].
Proof.
  intros subject msgs x y g Hl Ex Ey.
  exists (Start 1 x :: Start 2 y :: sent subject msgs 2), (Start 1 x :: sent subject msgs 1).
  set (r1 := change nobody (Start 1 x)). set (r2 := change r1 (Start 2 y)).
  assert (G1 : forall g' i k, member r1 g' subject i k -> g' = g).
  { intros g' i k (z & p & A & B & _). unfold r1 in A. cbn [change] in A. destruct (Nat.eqb i 1); [|discriminate]. injection A as <-.
    rewrite Ex in B. destruct k as [|[|k]]; cbn in B; try discriminate. injection B as _ ->. reflexivity. }
  assert (G2 : forall g' i k, member r2 g' subject i k -> g' = g).
  { intros g' i k (z & p & A & B & C). unfold r2 in A. cbn [change] in A. destruct (Nat.eqb i 2); [|apply (G1 g' i k); exists z, p; auto].
    injection A as <-. rewrite Ey in B. destruct k as [|[|k]]; cbn in B; try discriminate. injection B as _ ->. reflexivity. }
  destruct (sent_run subject g Hl msgs 1 r1 x eq_refl Ex G1) as (A1 & A2 & _).
  destruct (sent_run subject g Hl msgs 2 r2 y eq_refl Ey G2) as (B1 & _ & B3).
  assert (C : forall to, flat_map (concerns 1) (sent subject msgs to) = map (fun d => CPublish subject d) msgs).
  { intros to. induction msgs as [|d ms IH]; [reflexivity|]. cbn. f_equal. apply IH.
    - intros. apply (sent_run subject g Hl ms 1 r1 x eq_refl Ex G1).
    - apply (sent_run subject g Hl ms 1 r1 x eq_refl Ex G1).
    - apply (sent_run subject g Hl ms 2 r2 y eq_refl Ey G2).
    - apply (sent_run subject g Hl ms 2 r2 y eq_refl Ey G2). }
  split; [cbn [honest]; split; [exact Logic.I|]; split; [exact Logic.I|exact B1]|].
  split; [cbn [honest]; split; [exact Logic.I|exact A1]|].
  split; [cbn [flat_map concerns Nat.eqb app]; rewrite !C; reflexivity|].
  split.
  { cbn [without filter Nat.eqb negb]. f_equal. clear. induction msgs as [|d ms IH]; [reflexivity|]. cbn. f_equal. exact IH. }
  split; [right; left; reflexivity|]. split; [exact A2|].
  cbn [received gets app]. apply B3; [discriminate|]. intros z Hz. change (Some x = Some z) in Hz. injection Hz as <-. exact Ex.
Qed.
Print Assumptions C120_diverted_refuted.

(** Which pairs of components that is. *)
Example div_filters : subs (Filter (lit "influx-spout")) = [(lit "influx-spout", Some (lit "filter"))] /\ literal (lit "influx-spout").
Proof.
  split; [reflexivity|]. exists [lit "influx-spout"]. split; [|split; cbn; intuition discriminate].
  split; [discriminate|]. split; [|reflexivity]. constructor; [|constructor]. cbn. intuition discriminate.
Qed.
Example div_writer_named_filter : subs (Writer [lit "influx-spout"] (lit "filter")) = subs (Filter (lit "influx-spout")). Proof. reflexivity. Qed.

(** Non-vacuity: a writer without queue group, a filter and a downsampler; another writer and a tap come and go. *)
Definition flow (p q : nat) : list event :=
  [Start 1 (Writer [lit "cpu"; lit "cpu-archive"] []); Start 2 (Filter (lit "influx-spout")); Start 3 (Downsampler [lit "cpu"]);
   Publish (lit "influx-spout") (lit "a") (fun _ => (2, 0)); Publish (lit "cpu") (lit "a") (fun _ => (2, 0));
   Start 4 (Writer [lit "*"] (lit "w")); Publish (lit "cpu") (lit "b") (fun _ => (4, 0)); Start 5 (Tap (lit ">")); Stop 4;
   Publish (lit "cpu-archive") (lit "c") (fun _ => (p, q))].
Example C120_case : starts_alone 1 (flow 2 0) /\
  received 1 nobody (flow 2 0) = [(0, lit "cpu", lit "a"); (0, lit "cpu", lit "b"); (1, lit "cpu-archive", lit "c")] /\
  received 4 nobody (flow 2 0) = [(0, lit "cpu", lit "b")] /\ received 5 nobody (flow 2 0) = [(0, lit "cpu-archive", lit "c")] /\
  received 1 nobody (without 4 (flow 2 0)) = received 1 nobody (flow 2 0).
Proof.
  split.
  - intros x H. cbn in H. repeat (destruct H as [H|H]; [try discriminate H|]); [|destruct H]. injection H as <-. apply C120_alone. auto.
  - vm_compute. auto.
Qed.
Ltac who := intros g (i & k & x & p & E & En & Hg); apply subject_match_iff in Hg; unfold nobody in E;
  repeat match type of E with (if Nat.eqb i ?n then _ else _) = _ => destruct (Nat.eqb_spec i n); [injection E as <- || discriminate E|] end; try discriminate E;
  cbn [subs map] in En; destruct k as [|[|k]]; cbn in En; try discriminate En; try (destruct k; discriminate En); injection En as <- <-; try discriminate Hg.
Example C120_case_honest : honest nobody (flow 2 0) /\
  (forall s x y i, i <> 4 -> In (Start 4 x) (flow 2 0) -> In (Start i y) (flow 2 0) -> ~ shares x y s).
Proof.
  split.
  - cbn [flow honest change]. repeat (split; [try exact Logic.I|]); try exact Logic.I; who.
    + exists (Filter (lit "influx-spout")), (lit "influx-spout"). split; [reflexivity|]. split; [reflexivity|]. apply subject_match_iff. reflexivity.
    + exists (Writer [lit "*"] (lit "w")), (lit "*"). split; [reflexivity|]. split; [reflexivity|]. apply subject_match_iff. reflexivity.
  - intros s x y i Hi Hx Hy (g & p & q & A & B & _).
    assert (Gx : g = lit "w").
    { cbn in Hx. repeat (destruct Hx as [Hx|Hx]; [try discriminate Hx|]); [|destruct Hx]. injection Hx as <-. cbn in A. destruct A as [A|[]]. injection A as _ <-. reflexivity. }
    subst g. cbn in Hy. repeat (destruct Hy as [Hy|Hy]; [first [discriminate Hy|injection Hy as <- <-; cbn in B; repeat (destruct B as [B|B]; [try discriminate B|]); try destruct B; try congruence]|]).
    destruct Hy.
Qed.
