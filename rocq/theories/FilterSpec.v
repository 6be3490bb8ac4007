(** What the filter is supposed to do with a batch, on values. *)
From Verif Require Import Base Text TextSpec NumSpec LinesSpec Rules RulesSpec FilterWorker.
Local Open Scope Z_scope.

(** The line ends in a timestamp, with no other space among the last 20 bytes. *)
Definition stamped (line : bytes) (ts : Z) : Prop :=
  exists pre txt, line_ts_split line pre txt ts /\ ~ In sp (skipn (length pre + length txt - 19) pre).

(** The time a line counts for: its timestamp, or the current time when it has none that is
    recognised (short lines, timestamp -1). *)
Definition line_time (now : Z) (line : bytes) (ts : Z) : Prop :=
  ((24 < length line)%nat /\ stamped line ts /\ ts <> -1) \/
  (((length line <= 24)%nat \/ forall t, stamped line t -> t = -1) /\ ts = now).

(** What becomes of one line. *)
Inductive fate :=
| FateRule (i : nat) (text : bytes)
| FateJunk (text : bytes)
| FateInvalidTime
| FateDropped.

(** The text forwarded for a parsed line: unchanged if its tags are in key order, otherwise
    written again with the tags in key order. *)
Definition sorted_text (line m : bytes) (tags : list tag) (rest text : bytes) : Prop :=
  exists tags', Permutation tags tags' /\ keys_sorted tags' /\
    (keys_sorted tags -> text = line) /\
    (~ keys_sorted tags ->
       text = match rest with
              | [] => esc_spec [comma; sp] m ++ [comma] ++ TagsBytes tags'
              | _ => render_line m tags' rest
              end).

(** The fate of a line, given which rule is right for it ([right line m tags text o]). *)
Inductive line_fate (now delta : Z) (right : bytes -> bytes -> list tag -> bytes -> option nat -> Prop) (line : bytes)
  : fate -> Prop :=
| lf_time ts : line_time now line ts -> ~ (now - delta < ts < now + delta) ->
    line_fate now delta right line FateInvalidTime
| lf_bad ts : line_time now line ts -> now - delta < ts < now + delta -> ParseTags line = PErr ->
    line_fate now delta right line FateDropped
| lf_rule ts m tags rest text i : line_time now line ts -> now - delta < ts < now + delta ->
    ParseTags line = POk m tags rest -> sorted_text line m tags rest text -> right line m tags text (Some i) ->
    line_fate now delta right line (FateRule i text)
| lf_junk ts m tags rest text : line_time now line ts -> now - delta < ts < now + delta ->
    ParseTags line = POk m tags rest -> sorted_text line m tags rest text -> right line m tags text None ->
    line_fate now delta right line (FateJunk text).

(** Any existing rule. *)
Definition some_rule (rs : list rule) (line m : bytes) (tags : list tag) (text : bytes) (o : option nat) : Prop :=
  match o with Some i => (i < length rs)%nat | None => True end.
(** The first rule that is meant to match. *)
Definition first_rule (rs : list rule) (line m : bytes) (tags : list tag) (text : bytes) (o : option nat) : Prop :=
  first_such (fun r => means (r_match r) m tags text) rs o.

(** The data routed to rule [i], and to junk, in input order. *)
Definition data_for (i : nat) (fs : list fate) : bytes :=
  flat_map (fun f => match f with FateRule j t => if Nat.eqb j i then t else [] | _ => [] end) fs.
Definition junk_for (fs : list fate) : bytes :=
  flat_map (fun f => match f with FateJunk t => t | _ => [] end) fs.

(** The messages to publish: per rule in rule order, then junk; no empty messages. *)
Definition outputs (rs : list rule) (junk : bytes) (fs : list fate) : list (bytes * bytes) :=
  filter (fun p => match snd p with [] => false | _ => true end)
         (map (fun ir => (r_subject (snd ir), data_for (fst ir) fs)) (combine (seq 0 (length rs)) rs)
          ++ [(junk, junk_for fs)]).

(** Counting in a trace of actions. *)
Definition published (l : list act) : list (bytes * bytes) :=
  flat_map (fun a => match a with APublish s d _ => [(s, d)] | _ => [] end) l.
Definition count_publish_failures (l : list act) : nat :=
  length (filter (fun a => match a with APublish _ _ false => true | _ => false end) l).
Definition fstat_eqb (a b : fstat) : bool :=
  match a, b with
  | FPassed, FPassed | FProcessed, FProcessed | FRejected, FRejected
  | FInvalidTime, FInvalidTime | FFailedPublish, FFailedPublish => true
  | _, _ => false
  end.
Definition counter (s : fstat) (l : list act) : nat :=
  length (filter (fun a => match a with AInc t => fstat_eqb s t | _ => false end) l).
Definition rule_counter (i : nat) (l : list act) : nat :=
  length (filter (fun a => match a with ARule j => Nat.eqb i j | _ => false end) l).
Definition fates_rule (fs : list fate) : nat :=
  length (filter (fun f => match f with FateRule _ _ => true | _ => false end) fs).
Definition fates_of_rule (i : nat) (fs : list fate) : nat :=
  length (filter (fun f => match f with FateRule j _ => Nat.eqb i j | _ => false end) fs).
Definition fates_junk (fs : list fate) : nat :=
  length (filter (fun f => match f with FateJunk _ => true | _ => false end) fs).
Definition fates_time (fs : list fate) : nat :=
  length (filter (fun f => match f with FateInvalidTime => true | _ => false end) fs).
Definition fates_dropped (fs : list fate) : nat :=
  length (filter (fun f => match f with FateDropped => true | _ => false end) fs).
