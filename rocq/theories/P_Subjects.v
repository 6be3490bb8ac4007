(** C99 (a downsampler does not get its own output as input) and C100 (a message arrives once). *)
From Verif Require Import Base Convert NumProofs RulesSpec RulesProofs Avg AvgSpec Assigner AssignerSpec DsProofs DsMain DsEnd Config Subjects DsLoop Nats Copies Rules FilterWorker FilterSpec EndToEnd Loop P_Cluster.
From Coq Require Import Sorted ListDec.
Local Open Scope Z_scope.

(* ------------------------------------------------------------------ *)
(** * C99 *)

(** What a subscription gets, word by word. *)
Theorem C99_matching : forall p s, subject_match p s = true <-> subject_gets p s.
Proof. exact subject_match_iff. Qed.

(** False: a configuration that is accepted, and one line sent once: for as many periods as one likes the downsampler
    publishes it again, with the time of each new period; everything it gets except the first message is what it
    published itself, on a subject its subscription matches. *)
Definition wild_file : pfile :=
  PFile None (Some (lit "downsampler")) None (Some [lit "spout.*"]) None None None None None None None None None None None None None None None None None
    None None None None None None None (Some (lit "-archive")) None.

Theorem C99_refuted : exists cf, loaded_as wild_file = LoadOk cf /\ Validate cf = None /\ c_subjects cf = [lit "spout.*"] /\ c_period cf = 60000000000 /\
  subject_gets (lit "spout.*") (lit "spout.*" ++ c_suffix cf) /\
  forall fo gosort now0 e0 ts0 n, sorts gosort -> period_end (c_period cf) now0 e0 ->
    e0 - 2 * c_period cf <= ts0 < e0 - c_period cf -> 0 <= ts0 -> e0 + Z.of_nat n * c_period cf <= maxInt64 ->
    let d0 := Assigner.newWorker (avgBucket fo) (fun _ => []) (c_period cf) now0 in
    exists turns, Forall (renders fo gosort) turns /\ StronglySorted Z.le (now0 :: map (t_now _) turns) /\
      echoes fo (fun _ => false) (cpu_at ts0) d0 turns /\ length (got turns) = S n /\
      d_pub (d_st _ (worker_run (avgBucket fo) lerr (fun _ => []) (AddLine fo) (fun _ => false) d0 turns)) =
        map (fun k => lit "cpu x=1i " ++ FormatInt (e0 + (Z.of_nat k - 1) * c_period cf) ++ [nl]) (seq 0 (S n)).
Proof.
  eexists. split; [vm_compute; reflexivity|]. split; [vm_compute; reflexivity|]. split; [reflexivity|]. split; [reflexivity|]. split; [apply subject_match_iff; vm_compute; reflexivity|].
  intros fo gs now0 e0 ts0 n Hs He Ht H0 Hn d0. cbn [c_period c_suffix] in *.
  destruct (echo_forever fo gs Hs (fun _ => false) 60000000000 now0 e0 ltac:(lia) He ts0 ltac:(lia) H0 n) as (ts & A1 & A2 & A3 & _ & _ & A6 & A7 & _); [unfold period_at; lia|].
  exists ts. split; [exact A1|]. split; [exact A3|]. split; [exact A2|]. split; [exact A6|exact A7].
Qed.
Print Assumptions C99_refuted.

(** The values are wrong as well: the period with the one value 20 is published as 15, because the average of the
    period before it counts as one of its values. *)
Definition fb_line1 : bytes := lit "cpu x=10i 1510000000000000003
".
Definition fb_line2 : bytes := lit "cpu x=20i 1510000000000000013
".
Definition fb_turn (i : option bytes) (now : Z) : turn (avgBucket fo0) :=
  mkTurn _ (match i with Some d => Some (d, fun _ => now) | None => None end) now (plain_render fo0 (@isort)).
Definition fb_run (ts : list (turn (avgBucket fo0))) : list bytes :=
  d_pub (d_st _ (worker_run (avgBucket fo0) lerr (fun _ => []) (AddLine fo0) (fun _ => false) (Assigner.newWorker (avgBucket fo0) (fun _ => []) 10 1510000000000000005) ts)).

Theorem C99_average_refuted :
  let before := [fb_turn (Some fb_line1) 1510000000000000005; fb_turn (Some fb_line2) 1510000000000000015; fb_turn None 1510000000000000020] in
  fb_run before = [lit "cpu x=10i 1510000000000000010
"] /\
  fb_run (before ++ [fb_turn None 1510000000000000030]) = [lit "cpu x=10i 1510000000000000010
"; lit "cpu x=20i 1510000000000000020
"] /\
  fb_run (before ++ [fb_turn (Some (lit "cpu x=10i 1510000000000000010
")) 1510000000000000021; fb_turn None 1510000000000000030]) = [lit "cpu x=10i 1510000000000000010
"; lit "cpu x=15i 1510000000000000020
"].
Proof. vm_compute. auto. Qed.

(** Exactly: a subject brings its own output back if and only if it ends with the word [>], or with the word [*] and
    the suffix has no dot. *)
Theorem C99_exact_partial : forall p suffix, subscribable p -> suffix <> [] ->
  (subject_gets p (p ++ suffix) <-> last_word p (lit ">") \/ (last_word p (lit "*") /\ ~ In dot suffix)).
Proof. exact own_output. Qed.

(** Without wildcards: the output of one subject is the input of another exactly when they differ by the suffix, and
    no data comes back to the subject it came from, however many workers handle it. *)
Theorem C99_literal_partial : forall subjects suffix, Forall literal subjects -> suffix <> [] ->
  (forall p q, comes_back subjects suffix p q <-> In p subjects /\ In q subjects /\ q = p ++ suffix) /\
  (forall p, ~ reaches subjects suffix p p).
Proof.
  intros subjects suffix F N. split; [intros p q; apply literal_comes_back; exact F|].
  intros p H. apply (literal_no_loop subjects suffix p p F N) in H. lia.
Qed.

Print Assumptions C99_matching.
Print Assumptions C99_average_refuted.
Print Assumptions C99_exact_partial.
Print Assumptions C99_literal_partial.

(** Period 60 s: the instant 1510000013 s is in the period ending at 1510000020 s; there is room for 10^8 periods. *)
Example C99_case : period_end 60000000000 1510000013000000000 1510000020000000000 /\ 1510000020000000000 + Z.of_nat 1000 * 60000000000 <= maxInt64.
Proof. split; [vm_compute; intuition congruence|]. vm_compute. discriminate. Qed.
Example C99_case_words : subscribable (lit "spout.cpu.*") /\ last_word (lit "spout.cpu.*") (lit "*") /\ ~ In dot (lit "-archive") /\ literal (lit "spout.cpu").
Proof.
  assert (W : words (lit "spout.cpu.*") [lit "spout"; lit "cpu"; lit "*"]) by exact (tokens_words (lit "spout.cpu.*")).
  split; [|split; [|split]].
  - exists [lit "spout"; lit "cpu"; lit "*"]. split; [exact W|]. split; [repeat constructor; discriminate|]. cbn. intuition discriminate.
  - apply (last_word_iff _ [lit "spout"; lit "cpu"] (lit "*") _ W). reflexivity.
  - vm_compute. intuition discriminate.
  - exists [lit "spout"; lit "cpu"]. split; [exact (tokens_words (lit "spout.cpu"))|]. cbn. intuition discriminate.
Qed.
Example C99_case_match : map (fun ps => subject_match (lit (fst ps)) (lit (snd ps)))
  [("a.*", "a.b"); ("a.*", "a.b.c"); ("a.>", "a.b.c"); ("a.>", "a"); ("*.b", "a.b"); ("a.b", "a.b"); ("a.>", "a.>.x")]%string = [true; false; true; false; true; true; true].
Proof. reflexivity. Qed.
(** Two literal subjects of which one is the other's output. *)
Example C99_case_chain : comes_back [lit "a"; lit "a-archive"] (lit "-archive") (lit "a") (lit "a-archive").
Proof. split; [left; reflexivity|]. split; [right; left; reflexivity|]. apply subject_match_iff. reflexivity. Qed.

(* ------------------------------------------------------------------ *)
(** * C100 *)

(** False: an accepted configuration of a writer without queue group that gets (and so writes) every message on one
    subject twice. *)
Definition overlap_file : pfile :=
  PFile None (Some (lit "writer")) None (Some [lit "spout.*"; lit "spout.cpu"]) None None None None None None None None None None None None None None None None None
    None None None None None None None None None.

Theorem C100_refuted : (exists cf, loaded_as overlap_file = LoadOk cf /\ Validate cf = None /\ c_subjects cf = [lit "spout.*"; lit "spout.cpu"] /\ c_queue_group cf = []) /\
  forall subs p ids, map (nth_error subs) ids = map Some (writer_subs [lit "spout.*"; lit "spout.cpu"] []) -> pb_subject p = lit "spout.cpu" -> copies subs p ids = 2%nat.
Proof.
  split; [eexists; split; [vm_compute; reflexivity|]; split; [vm_compute; reflexivity|]; split; reflexivity|].
  intros subs p ids E Hp. rewrite (plain_copies subs p ids [lit "spout.*"; lit "spout.cpu"]) by exact E. rewrite Hp. reflexivity.
Qed.

(** False also of filters: they all are in the queue group "filter", so of two filters whose subjects overlap one gets
    the message and the other does not - whatever their rules are. *)
Theorem C100_filters_refuted : forall a b subject data, subject_gets a subject -> subject_gets b subject ->
  exists p q, pb_subject p = subject /\ pb_subject q = subject /\ pb_data p = data /\ pb_data q = data /\ wpicks [filter_sub a; filter_sub b] p /\ wpicks [filter_sub a; filter_sub b] q /\
    map (wtakes [filter_sub a; filter_sub b] p) [0%nat; 1%nat] = [true; false] /\ map (wtakes [filter_sub a; filter_sub b] q) [0%nat; 1%nat] = [false; true].
Proof.
  intros a b s data Ga Gb. exists (Pub s data (fun _ => 0%nat)), (Pub s data (fun _ => 1%nat)).
  assert (Ma := proj2 (subject_match_iff a s) Ga). assert (Mb := proj2 (subject_match_iff b s) Gb).
  split; [reflexivity|]. split; [reflexivity|]. split; [reflexivity|]. split; [reflexivity|].
  assert (K : forall g i, wmember [filter_sub a; filter_sub b] s g i -> g = lit "filter").
  { intros g i (x & E & _). destruct i as [|[|i]]; [injection E as _ <-; reflexivity|injection E as _ <-; reflexivity|destruct i; discriminate E]. }
  split; [intros g (i & M); rewrite (K g i M); exists a; auto|]. split; [intros g (i & M); rewrite (K g i M); exists b; auto|].
  unfold wtakes. cbn [map nth_error filter_sub sn_subject sn_group pb_subject pb_pick]. rewrite Ma, Mb. auto.
Qed.

(** Exactly, without queue group: one copy for every subject of the configuration that matches; so at most one copy of
    every message if and only if no two subjects have a message in common. *)
Theorem C100_copies_partial : forall subs ids subjects, map (nth_error subs) ids = map Some (writer_subs subjects []) ->
  (forall p, copies subs p ids = length (filter (fun s => subject_match s (pb_subject p)) subjects)) /\
  ((forall p, copies subs p ids <= 1)%nat <-> ~ overlap subjects).
Proof.
  intros subs ids subjects E. assert (E' : map (nth_error subs) ids = map (fun s => Some (Subn s None)) subjects) by (rewrite E; unfold writer_subs; rewrite map_map; reflexivity).
  split; [intros p; apply plain_copies; exact E'|apply once_iff; exact E'].
Qed.
(** Without wildcards: when they are all different. *)
Theorem C100_literal_partial : forall subjects, Forall literal subjects -> (~ overlap subjects <-> NoDup subjects).
Proof.
  intros subjects F. pose proof (literal_overlap subjects F) as H. split; [|tauto]. intros N.
  destruct (ListDec.NoDup_dec (list_eq_dec ascii_dec) subjects) as [X|X]; [exact X|]. exfalso. apply N. apply H. exact X.
Qed.
(** The members of a queue group together get one copy of every message that matches the subject of one of them. *)
Theorem C100_group_partial : forall subs p g ids, wpicks subs p -> NoDup ids -> (forall i, In i ids <-> exists s, nth_error subs i = Some (Subn s (Some g))) ->
  (copies subs p ids = 1%nat /\ exists i, In i ids /\ wmember subs (pb_subject p) g i) \/ (copies subs p ids = 0%nat /\ forall i, In i ids -> ~ wmember subs (pb_subject p) g i).
Proof. exact group_copies. Qed.

Print Assumptions C100_refuted.
Print Assumptions C100_filters_refuted.
Print Assumptions C100_copies_partial.
Print Assumptions C100_literal_partial.
Print Assumptions C100_group_partial.

(** A writer on two subjects in a queue group with another one. *)
Definition cp_subs : list subscription := writer_subs [lit "spout.*"; lit "spout.cpu"] (lit "w") ++ writer_subs [lit "spout.>"] (lit "w").
Example C100_case : let p := Pub (lit "spout.cpu") (lit "cpu x=1
") (fun _ => 2%nat) in wpicks cp_subs p /\ copies cp_subs p [0; 1; 2]%nat = 1%nat /\
  (forall i, In i [0; 1; 2]%nat <-> exists s, nth_error cp_subs i = Some (Subn s (Some (lit "w")))).
Proof.
  split; [|split; [reflexivity|]].
  - intros g (i & s & E & _). exists (lit "spout.>"). do 3 (destruct i as [|i]; [vm_compute in E; injection E as _ <-; split; [reflexivity|apply subject_match_iff; reflexivity]|]). destruct i; discriminate E.
  - intros i. split.
    + intros [<-|[<-|[<-|[]]]]; eexists; reflexivity.
    + intros (s & E). do 3 (destruct i as [|i]; [cbn; tauto|]). destruct i; discriminate E.
Qed.
Example C100_case_plain : map (nth_error (writer_subs [lit "a"; lit "b"] [])) [0; 1]%nat = map Some (writer_subs [lit "a"; lit "b"] []) /\ ~ overlap [lit "a"; lit "b"].
Proof.
  split; [reflexivity|]. apply C100_literal_partial; [|repeat constructor; cbn; intuition discriminate].
  constructor; [|constructor; [|constructor]]; eexists; (split; [apply tokens_words|]); vm_compute; intuition discriminate.
Qed.

(* ------------------------------------------------------------------ *)
(** * C77 with wildcards *)

(** A filter's loop may also be closed by a wildcard: the filter reads [spout.>], its rule sends to [spout.cpu]. *)
Definition wild_filter_file : pfile :=
  PFile None (Some (lit "filter")) None (Some [lit "spout.>"]) None None None None None None None None None None None None None None None None None
    (Some [PRule (Some (lit "basic")) (Some (lit "cpu")) None (Some (lit "spout.cpu"))]) None None None None None None None None.

Theorem C77_wildcard_refuted : exists cf rs, loaded_as wild_filter_file = LoadOk cf /\ Validate cf = None /\
  RuleSetFromConfig (fun _ => None) cf = RsOk rs /\ c_subjects cf = [lit "spout.>"] /\ subject_gets (lit "spout.>") (lit "spout.cpu") /\
  forall gosort clk n, sorts gosort -> (forall k : nat, 0 <= clk k < 4000000000000000000) ->
    circulates gosort (mkFcfg (c_max_time_delta cf) rs (c_subject_junk cf)) (lit "spout.cpu") (lit "cpu x=1
") clk n.
Proof.
  do 2 eexists. split; [vm_compute; reflexivity|]. split; [vm_compute; reflexivity|]. split; [vm_compute; reflexivity|]. split; [reflexivity|].
  split; [apply subject_match_iff; reflexivity|].
  intros gs clk n GS Hk. apply loop_run; auto.
  - exists (lit "cpu x=1"). split; [vm_compute; intuition discriminate|reflexivity].
  - intros k. pose proof (Hk k) as B. cbn [fc_delta c_max_time_delta]. unfold int64, minInt64, maxInt64, two63.
    split; [cbn; lia|]. split; [cbn; lia|]. apply short_passes.
    + vm_compute; lia.
    + reflexivity.
    + do 3 eexists. split; [vm_compute; reflexivity|]. intros i j a b L Hi. destruct i; discriminate.
    + intros m tags rest H. vm_compute in H. inversion H; subst. split.
      * intros r name [<-|[]] E X. inversion E; subst. reflexivity.
      * left. left. intros i j a b L Hi. destruct i; discriminate.
  - do 4 eexists. split; [vm_compute; reflexivity|]. split; [|].
    + instantiate (1 := Some 0%nat). cbn [first_such fc_rules]. split.
      * eexists. split; [reflexivity|]. reflexivity.
      * intros j Hj. lia.
    + eexists. split; reflexivity.
Qed.
Print Assumptions C77_wildcard_refuted.
