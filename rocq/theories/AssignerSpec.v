(** What the downsampler's time buckets are supposed to do, independent of the assigner's
    three-bucket state: a log of accepted lines and the number of periods already emitted. *)
From Verif Require Import Base LinesSpec NumSpec Assigner.
Local Open Scope Z_scope.

(** The non-empty lines of a buffer, without their newlines. *)
Definition chomped (l : bytes) : bytes := if Ascii.eqb (last l "000"%char) nl then removelast l else l.
Definition full_lines (data : bytes) : list bytes :=
  filter (fun l : bytes => match l with [] => false | _ => true end) (map chomped (lines_of data)).

(** [line], read at time [now], stands for [body] at time [ts]: the timestamp at the end of the
    line if it has one (and at least six bytes), the current time otherwise. *)
Definition stamped (line : bytes) (now ts : Z) (body : bytes) : Prop :=
  ((6 <= length line)%nat /\ exists txt, line_ts_split line body txt ts) \/
  (((length line < 6)%nat \/ ~ exists pre txt t, line_ts_split line pre txt t) /\ ts = now /\ body = line).

(** [e] is the end of the period of length [p] that contains the instant [now]; periods are
    aligned to multiples of [p] since Go's zero time. *)
Definition period_end (p now e : Z) : Prop := e - p <= now < e /\ (e + goEpoch) mod p = 0.

Section Spec.
  Variables (B E : Type).
  Variable newBucket : Z -> B.
  Variable addLine : B -> bytes -> B * list E.
  (** The period, and the end of the period in which the downsampler was started. *)
  Variables (p e0 : Z).

  (** Accepted lines, oldest first: timestamp and text. *)
  Definition log := list (Z * bytes).

  (** What the period ending at [e] contains: the accepted lines of [e-p, e), in order. *)
  Definition contents (l : log) (e : Z) : B :=
    fold_left (fun b x => fst (addLine b (snd x))) (filter (fun x => (e - p <=? fst x) && (fst x <? e)) l) (newBucket e).

  (** What happens to the lines of one message (each with the clock reading made for it), after
      [k] periods have been emitted.  Periods are named by their end. *)
  Inductive takes (k : Z) : log -> list (bytes * Z) -> list (uerr E) -> log -> Prop :=
  | takes_nil l : takes k l [] [] l
  | takes_old l line now ts body rest errs l' :
      stamped line now ts body -> ts < e0 + (k - 2) * p ->
      takes k l rest errs l' -> takes k l ((line, now) :: rest) (UTooOld E line :: errs) l'
  | takes_new l line now ts body rest errs l' :
      stamped line now ts body -> e0 + (k + 1) * p <= ts ->
      takes k l rest errs l' -> takes k l ((line, now) :: rest) (UTooNew E line :: errs) l'
  | takes_ok l line now ts body i rest errs l' :
      stamped line now ts body -> k - 1 <= i <= k + 1 -> e0 + (i - 1) * p <= ts < e0 + i * p ->
      takes k (l ++ [(ts, body)]) rest errs l' ->
      takes k l ((line, now) :: rest)
        (map (fun e => ULine E e line) (snd (addLine (contents l (e0 + i * p)) body)) ++ errs) l'.

  (** Calls of the assigner: Update with the clock readings it makes, Bytes with its reading. *)
  Inductive call := CUpdate (data : bytes) (clk : nat -> Z) | CBytes (now : Z).
  Inductive answer := AErrors (errs : list (uerr E)) | ANothing | ABucket (eb : Z * B).

  (** Histories: [k] periods emitted and [l] accepted after these calls with these answers. *)
  Inductive history : list call -> list answer -> Z -> log -> Prop :=
  | h_nil : history [] [] 0 []
  | h_update cs ans k l data clk errs l' :
      history cs ans k l ->
      takes k l (combine (full_lines data) (map clk (seq 0 (length (full_lines data))))) errs l' ->
      history (cs ++ [CUpdate data clk]) (ans ++ [AErrors errs]) k l'
  | h_wait cs ans k l now :
      history cs ans k l -> now < e0 + k * p ->
      history (cs ++ [CBytes now]) (ans ++ [ANothing]) k l
  | h_emit cs ans k l now :
      history cs ans k l -> e0 + k * p <= now ->
      history (cs ++ [CBytes now]) (ans ++ [ABucket (e0 + (k - 1) * p, contents l (e0 + (k - 1) * p))]) (k + 1) l.
End Spec.

Arguments CUpdate data clk : assert.
Arguments AErrors {B E}. Arguments ANothing {B E}. Arguments ABucket {B E}.
Arguments UTooOld {E}. Arguments UTooNew {E}. Arguments ULine {E}.

(** Running the model over a history of calls. *)
Section Run.
  Variables (B E : Type).
  Variable newBucket : Z -> B.
  Variable addLine : B -> bytes -> B * list E.
  Definition do_call (a : assigner B) (c : call) : assigner B * answer B E :=
    match c with
    | CUpdate data clk => let (a', errs) := Update B E addLine a data clk in (a', AErrors errs)
    | CBytes now => let (a', o) := emit B newBucket a now in
                    (a', match o with None => ANothing | Some eb => ABucket eb end)
    end.
  Fixpoint do_calls (a : assigner B) (cs : list call) : assigner B * list (answer B E) :=
    match cs with
    | [] => (a, [])
    | c :: cs' => let (a1, r) := do_call a c in let (a2, rs) := do_calls a1 cs' in (a2, r :: rs)
    end.
End Run.

(** The buckets emitted, with the clock reading of the Bytes call, in order. *)
Fixpoint emitted {B E} (cs : list call) (ans : list (answer B E)) : list (Z * (Z * B)) :=
  match cs, ans with
  | CBytes now :: cs', ABucket eb :: ans' => (now, eb) :: emitted cs' ans'
  | _ :: cs', _ :: ans' => emitted cs' ans'
  | _, _ => []
  end.
