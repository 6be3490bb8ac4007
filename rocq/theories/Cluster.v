(** Any number of listeners, filters and writers connected by NATS. *)
From Verif Require Import Base LinesSpec Text Rules RulesSpec FilterWorker FilterSpec FilterProofs Listener ListenerSpec Retry RetrySpec Writer WriterSpec EndToEnd Nats.
Local Open Scope nat_scope.

(** A listener at rest: the lines sent to it and the messages it published (EndToEnd). *)
Definition source (src : list bytes * list bytes) : Prop :=
  (exists lc us, udp_source lc us (fst src) (snd src)) \/ (exists lc qs, http_source lc qs (fst src) (snd src)).

(** A filter process: its subscription, its number of workers, its history and where that led. *)
Record finst := FI { fi_id : nat; fi_workers : nat; fi_labels : list flabel; fi_state : fsys }.

(** At rest, with the messages of its subscription received and everything it published taken by NATS. *)
Definition filter_ok (gs : forall A : Type, (A -> A -> bool) -> list A -> list A) (subs : list subscription) (pubs : list pub) (c : fcfg) (f : finst) : Prop :=
  fexec gs c (startFilter c (fi_workers f)) (fi_labels f) (fi_state f) /\ quiet (fi_state f) /\
  received (fi_labels f) = inbox subs pubs (fi_id f) /\
  Forall (time_ok c) (taken (fi_labels f)) /\ count_publish_failures (performed (fi_labels f)) = 0.

(** Listeners [srcs] publishing on [input], and filters [fis] with the same rules, subscribed to [input] in their queue
    group; [pubs] are all messages: those of the listeners on [input] and those of the filters. *)
Record cluster (gs : forall A : Type, (A -> A -> bool) -> list A -> list A) (subs : list subscription) (pubs : list pub) (c : fcfg) (input : bytes)
    (srcs : list (list bytes * list bytes)) (fis : list finst) : Prop := {
  cl_sort : sorts gs;
  cl_picks : Forall (picks_member subs) pubs;
  cl_sources : Forall source srcs;
  cl_sound : Forall (sound_line c) (flat_map fst srcs);
  cl_some : fis <> [];
  cl_ids : NoDup (map fi_id fis);
  cl_group : forall i, In i (map fi_id fis) <-> nth_error subs i = Some (filter_sub input);
  cl_filters : Forall (filter_ok gs subs pubs c) fis;
  cl_pubs : forall s, Permutation (on s pubs)
    ((if beqs s input then flat_map snd srcs else []) ++ flat_map (fun f => on_subjects [s] (performed (fi_labels f))) fis);
  cl_noloop : ~ In input (fc_junk c :: map r_subject (fc_rules c)) }.

(** A writer process: its subscriptions and its workers; each message it got went to one worker. *)
Record winst := WI { wi_ids : list nat; wi_workers : list wworker }.
Definition fed (subs : list subscription) (pubs : list pub) (w : winst) : Prop :=
  Forall plain_writer (wi_workers w) /\
  Permutation (flat_map (fun x => map snd (messages (ww_trace x))) (wi_workers w)) (flat_map (inbox subs pubs) (wi_ids w)).

(** A writer started with these subjects and this queue group (empty: none). *)
Definition writer_of (subs : list subscription) (subjects : list bytes) (group : bytes) (w : winst) : Prop :=
  map (nth_error subs) (wi_ids w) = map Some (writer_subs subjects group).

(** All writers of a queue group, started with the same subjects. *)
Definition whole_group (subs : list subscription) (subjects : list bytes) (group : bytes) (ws : list winst) : Prop :=
  group <> [] /\ ws <> [] /\ Forall (writer_of subs subjects group) ws /\ NoDup (flat_map wi_ids ws) /\
  forall i s, In s subjects -> nth_error subs i = Some (Subn s (Some group)) -> In i (flat_map wi_ids ws).

(** The lines handled by the filters, with the clock readings. *)
Definition all_handled (fis : list finst) : list (Z * bytes) := flat_map (fun f => handled (fi_labels f)) fis.
(** The lines written by some writers (or in their buffers), and those InfluxDB acknowledged. *)
Definition written (ws : list winst) : list bytes := in_writer (flat_map wi_workers ws).
Definition stored (ws : list winst) : list bytes := in_influxdb (flat_map wi_workers ws).

(** Writers that together read the subjects: one writer without queue group, or all writers of a queue group. *)
Definition good_readers (subs : list subscription) (subjects : list bytes) (ws : list winst) : Prop :=
  (exists w, ws = [w] /\ writer_of subs subjects [] w) \/ exists group, whole_group subs subjects group ws.
