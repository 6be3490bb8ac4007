(** C86: filters in series. *)
From Verif Require Import Base Text TextSpec TextProofs NumSpec LinesSpec Rules RulesSpec RulesProofs RouteProofs FilterWorker FilterSpec FilterProofs Chain.
Local Open Scope Z_scope.

(** Every message a filter publishes consists of whole lines, each saying the same as one of the lines of its batch. *)
Theorem C86_first_filter : forall gs c oks now batch s d, sorts gs -> int64 (now - fc_delta c) -> int64 (now + fc_delta c) ->
  Forall well_formed (lines_of batch) ->
  In (s, d) (published (snd (processBatch gs c oks now (newFilterWorker c) batch))) ->
  nl_ended d /\ d <> [] /\ forall l, In l (lines_of d) -> exists src, In src (lines_of batch) /\ same_point src l.
Proof.
  intros gs c oks now batch s d GS A B W I0. destruct (first_filter gs c oks now batch s d GS A B W I0) as (E & N & D).
  split; [exact E|]. split; [exact N|]. intros l Hl. destruct (D l Hl) as (src & Hs & m & tags & tags' & rest & P1 & P2 & P3 & P4 & _).
  exists src. split; [exact Hs|]. exists m, tags, tags', rest. auto.
Qed.
Print Assumptions C86_first_filter.

(** What a second filter does with any message d of a first one: no line is malformed, none is changed again, and each goes
    to the first rule that is meant to match the measurement and the tags of the line it comes from, whatever the order of the
    tags was originally - tag rules are right here, although they may be wrong in the first filter (C27). *)
Theorem C86_second_filter : forall gs c1 c2 oks1 now1 oks2 now2 batch s d, sorts gs ->
  int64 (now1 - fc_delta c1) -> int64 (now1 + fc_delta c1) -> int64 (now2 - fc_delta c2) -> int64 (now2 + fc_delta c2) ->
  Forall well_formed (lines_of batch) ->
  (forall line m tags rest, In line (lines_of batch) -> ParseTags line = POk m tags rest -> no_collision (fc_rules c2) m) ->
  In (s, d) (published (snd (processBatch gs c1 oks1 now1 (newFilterWorker c1) batch))) ->
  exists fs, published (snd (processBatch gs c2 oks2 now2 (newFilterWorker c2) d)) = outputs (fc_rules c2) (fc_junk c2) fs /\
    Forall2 (fun l f => exists line m tags rest, In line (lines_of batch) /\ ParseTags line = POk m tags rest /\ same_point line l /\
      meant_fate (fc_rules c2) now2 (fc_delta c2) m tags l f) (lines_of d) fs.
Proof. exact second_filter. Qed.
Print Assumptions C86_second_filter.

(** Non-vacuity: a line whose tags are not in order.  A first filter with a tag rule loses it to junk; a second filter with the
    same rule behind a measurement rule finds it. *)
Definition ex_in : bytes := lit "cpu,host=server1,dc=nyc x=1 1000" ++ [nl].
Definition ex_mid : bytes := lit "cpu,dc=nyc,host=server1 x=1 1000" ++ [nl].
Definition ex_tags : fcfg := mkFcfg 1000 [mkRule (MTags [(lit "host", lit "server1")]) (lit "servers")] (lit "junk").
Definition ex_first : fcfg := mkFcfg 1000 [mkRule (MBasic (lit "cpu")) (lit "cpus")] (lit "junk").

Example C86_direct : published (snd (processBatch (@isort) ex_tags (fun _ => true) 1000 (newFilterWorker ex_tags) ex_in)) = [(lit "junk", ex_mid)].
Proof. vm_compute. reflexivity. Qed.
Example C86_case :
  published (snd (processBatch (@isort) ex_first (fun _ => true) 1000 (newFilterWorker ex_first) ex_in)) = [(lit "cpus", ex_mid)] /\
  published (snd (processBatch (@isort) ex_tags (fun _ => true) 1000 (newFilterWorker ex_tags) ex_mid)) = [(lit "servers", ex_mid)].
Proof. vm_compute. auto. Qed.
Example C86_hyps : Forall well_formed (lines_of ex_in) /\
  (forall line m tags rest, In line (lines_of ex_in) -> ParseTags line = POk m tags rest -> no_collision (fc_rules ex_tags) m).
Proof.
  change (lines_of ex_in) with [ex_in]. split.
  - constructor; [|constructor]. split.
    + exists (lit "cpu,host=server1,dc=nyc x=1 1000"). split; [|reflexivity]. vm_compute. intuition discriminate.
    + intros m tags rest P. change (ParseTags ex_in) with (POk (lit "cpu") [(lit "host", lit "server1"); (lit "dc", lit "nyc")] (lit "x=1 1000" ++ [nl])) in P.
      injection P as <- <- <-. split; [discriminate|].
      assert (Hb : forall v, ~ In bsl v -> v <> [] -> good_measurement v /\ good_tagpart v).
      { intros v Nb Nv. assert (E : ~ ends_in bsl v) by (intros (p & ->); apply Nb; rewrite in_app_iff; right; left; reflexivity).
        assert (Hp : forall bs, ~ has_pair bsl bs v) by (intros bs (p & c & q & -> & _); apply Nb; rewrite in_app_iff; right; left; reflexivity).
        split; (split; [exact Nv|split; [exact E|apply Hp]]). }
      split; [apply Hb; [vm_compute; intuition discriminate|discriminate]|].
      constructor; [|constructor; [|constructor]]; split; (apply Hb; [vm_compute; intuition discriminate|discriminate]).
  - intros line m tags rest [<-|[]] P. change (ParseTags ex_in) with (POk (lit "cpu") [(lit "host", lit "server1"); (lit "dc", lit "nyc")] (lit "x=1 1000" ++ [nl])) in P.
    injection P as <- <- <-. unfold no_collision. intros r n [<-|[]] E. discriminate E.
Qed.
