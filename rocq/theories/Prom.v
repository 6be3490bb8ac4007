(** Model of the prometheus package (labels.go, metric.go, metricset.go, parse.go), of
    stats/prometheus.go and of the state of monitor/monitor.go.

    A parsed metric does not own its texts: Name and the label names and values are slices of
    the received line, and Metric.ToBytes renders the metric into a bytes.Buffer created over
    Name (metric.go:38), i.e. over the memory of that very line.  The model keeps the line and
    represents every text as a view (offset, length) of it. *)
From Verif Require Import Base Convert.
Local Open Scope Z_scope.

Definition lbrace : ascii := "{"%char.
Definition rbrace : ascii := "}"%char.

(* ------------------------------------------------------------------ *)
(** * Searching: Go's bytes package *)

(** bytes.IndexByte and bytes.IndexAny: position of the first byte that satisfies p. *)
Fixpoint index_of (p : ascii -> bool) (s : bytes) : option nat :=
  match s with
  | [] => None
  | c :: r => if p c then Some O else option_map S (index_of p r)
  end.

(** bytes.Index of an equals sign followed by a double quote (parse.go:104). *)
Fixpoint index_eqdq (s : bytes) : option nat :=
  match s with
  | [] => None
  | c :: r =>
      match r with
      | d :: _ => if Ascii.eqb c eqs && Ascii.eqb d dq then Some O else option_map S (index_eqdq r)
      | [] => None
      end
  end.

(** bytes.Split at newlines (parse.go:29): always at least one piece. *)
Fixpoint split_nl (s : bytes) : list bytes :=
  match s with
  | [] => [[]]
  | c :: r =>
      if Ascii.eqb c nl then [] :: split_nl r
      else match split_nl r with
           | p :: ps => (c :: p) :: ps
           | [] => [[c]]
           end
  end.

(* ------------------------------------------------------------------ *)
(** * Rendering *)

(** prometheus/labels.go:46-53: one label after the other, separated by commas. *)
Fixpoint labels_loop (ls : list (bytes * bytes)) : bytes :=
  match ls with
  | [] => []
  | [(n, v)] => n ++ [eqs; dq] ++ v ++ [dq]
  | (n, v) :: r => n ++ [eqs; dq] ++ v ++ [dq] ++ [comma] ++ labels_loop r
  end.

(** prometheus/labels.go:44-54, after the sort of line 43. *)
Definition labels_text (ls : list (bytes * bytes)) : bytes := [lbrace] ++ labels_loop ls ++ [rbrace].

(** prometheus/metric.go:38-46: the text built from a name and sorted labels. *)
Definition metric_bytes (name : bytes) (ls : list (bytes * bytes)) (value ms : Z) : bytes :=
  name ++ (match ls with [] => [] | _ => labels_text ls end) ++ [sp] ++ FormatInt value ++
  (if 0 <? ms then [sp] ++ FormatInt ms else []).

Section Sorted.
  (** Go's sort package (sort.Slice in labels.go:58, sort.Strings in metricset.go:66). *)
  Variable gosort : forall A : Type, (A -> A -> bool) -> list A -> list A.

  (** prometheus/labels.go:57-61. *)
  Definition sort_labels (ls : list (bytes * bytes)) : list (bytes * bytes) :=
    gosort (bytes * bytes)%type (fun a b => bltb (fst a) (fst b)) ls.

  (** prometheus/labels.go:42-55 Labels.ToBytes, for labels that own their texts. *)
  Definition LabelsToBytes (ls : list (bytes * bytes)) : bytes := labels_text (sort_labels ls).

  (** prometheus/metric.go:37-46 Metric.ToBytes, for a metric that owns its texts (as those built
      by stats/prometheus.go do). *)
  Definition MetricToBytes (name : bytes) (ls : list (bytes * bytes)) (value ms : Z) : bytes :=
    metric_bytes name (sort_labels ls) value ms.

  (** stats/prometheus.go:64-66; Go's integer division truncates towards zero. *)
  Definition timeToMillis (nanos : Z) : Z := Z.quot nanos 1000000.

  (** stats/prometheus.go:29-35 NewLabels. *)
  Definition NewLabels (hostname component name : bytes) : list (bytes * bytes) :=
    [(lit "component", component); (lit "name", name); (lit "host", hostname)].

  (** stats/prometheus.go:54-62 CounterToPrometheus. *)
  Definition CounterToPrometheus (name : bytes) (value nanos : Z) (ls : list (bytes * bytes)) : bytes :=
    MetricToBytes name ls value (timeToMillis nanos).

  (** prometheus/metricset.go:53-55 Update on the map, seen as a list of entries with distinct keys. *)
  Fixpoint map_put {M} (k : bytes) (m : M) (set : list (bytes * M)) : list (bytes * M) :=
    match set with
    | [] => [(k, m)]
    | (k', m') :: r => if beqs k' k then (k, m) :: r else (k', m') :: map_put k m r
    end.

  (** Lookup in the map (metricset.go:70). *)
  Fixpoint map_get {M} (k : bytes) (set : list (bytes * M)) : option M :=
    match set with
    | [] => None
    | (k', m') :: r => if beqs k' k then Some m' else map_get k r
    end.

  (** stats/prometheus.go:40-51 SnapshotToPrometheus: Update per counter (metricset.go:53-55 with the
      key of 76-78), then ToBytes (metricset.go:62-74).  All metrics share the labels slice, so the
      sort of the first rendering is repeated on an already sorted slice; the value is the
      uint64 converted to int64. *)
  Definition SnapshotToPrometheus (snap : list (bytes * Z)) (nanos : Z) (ls : list (bytes * bytes)) : bytes :=
    let set := fold_left (fun s (c : bytes * Z) => map_put (fst c ++ LabelsToBytes ls) c s) snap [] in
    concat (map (fun k => match map_get k set with
                          | Some c => MetricToBytes (fst c) ls (wrap64 (snd c)) (timeToMillis nanos) ++ [nl]
                          | None => []
                          end)
                (gosort bytes bltb (map fst set))).
End Sorted.

(* ------------------------------------------------------------------ *)
(** * Parsing *)

(** A slice of the line: offset and length. *)
Definition view := (nat * nat)%type.
Definition slice (s : bytes) (v : view) : bytes := firstn (snd v) (skipn (fst v) s).

(** prometheus/metric.go:25-30, with the memory its texts live in. *)
Record metric := Metric {
  m_line : bytes;                    (** the line the metric was parsed from *)
  m_name : nat;                      (** Name = line[:m_name] *)
  m_labels : list (view * view);     (** Labels: views of name and value *)
  m_value : Z;
  m_ms : Z
}.

Definition Name (m : metric) : bytes := firstn (m_name m) (m_line m).
Definition label_text (s : bytes) (l : view * view) : bytes * bytes := (slice s (fst l), slice s (snd l)).
Definition Labels (m : metric) : list (bytes * bytes) := map (label_text (m_line m)) (m_labels m).

Inductive lres :=
| LErr
| LPanic
| LOk (ls : list (view * view)) (n : nat).

(** prometheus/parse.go:99-128: the loop of parseLabels.  s is line[base:]; i the position in s.
    The fuel bounds the number of labels. *)
Fixpoint labels_parse (fuel : nat) (s : bytes) (base i : nat) (out : list (view * view)) : lres :=
  match fuel with
  | O => LErr
  | S f =>
      match index_eqdq (skipn i s) with
      | None => LErr
      | Some j =>
          let nm := ((base + i)%nat, j) in
          let i1 := (i + j + 2)%nat in
          match index_of (Ascii.eqb dq) (skipn i1 s) with
          | None => LErr
          | Some k =>
              let vl := ((base + i1)%nat, k) in
              let i2 := (i1 + k + 1)%nat in
              let out' := out ++ [(nm, vl)] in
              match nth_error s i2 with
              | None => LPanic
              | Some c =>
                  if Ascii.eqb c rbrace then LOk out' (i2 + 1)
                  else if Ascii.eqb c comma then labels_parse f s base (i2 + 1) out'
                  else LErr
              end
          end
      end
  end.

(** prometheus/parse.go:94-97 and the rest of parseLabels. *)
Definition parseLabels (s : bytes) (base : nat) : lres :=
  match s with
  | [] => LPanic
  | c :: _ => if Ascii.eqb c rbrace then LOk [] 1 else labels_parse (S (length s)) s base 0 []
  end.

Inductive mres :=
| MErr
| MPanic
| MOk (m : metric).

(** prometheus/parse.go:73-91: the value and the optional timestamp at position i. *)
Definition parse_numbers (s : bytes) (name : nat) (ls : list (view * view)) (i : nat) : mres :=
  if Nat.ltb (length s) i then MPanic
  else
    let t := skipn i s in
    let j := match index_of (Ascii.eqb sp) t with Some j => j | None => length t end in
    match ToInt (firstn j t) with
    | None => MErr
    | Some v =>
        if Nat.ltb (i + j) (length s) then
          match ToInt (skipn (i + j + 1) s) with
          | None => MErr
          | Some ms => MOk (Metric s name ls v ms)
          end
        else MOk (Metric s name ls v 0)
    end.

(** prometheus/parse.go:49-92 ParseMetric. *)
Definition ParseMetric (s : bytes) : mres :=
  if Nat.ltb (length s) 3 then MErr
  else
    match index_of (memb [sp; lbrace]) s with
    | None => MErr
    | Some i =>
        if Ascii.eqb (nth i s sp) lbrace then
          match parseLabels (skipn (i + 1) s) (i + 1) with
          | LErr => MErr
          | LPanic => MPanic
          | LOk ls n => parse_numbers s i ls (i + 1 + n + 1)
          end
        else parse_numbers s i [] (i + 1)
    end.

(* ------------------------------------------------------------------ *)
(** * MetricSet and the monitor *)

Section Monitor.
  Variable gosort : forall A : Type, (A -> A -> bool) -> list A -> list A.

  (** prometheus/labels.go:57-61 on a parsed metric: the label slice is sorted in place. *)
  Definition sort_views (m : metric) : metric :=
    Metric (m_line m) (m_name m)
      (gosort (view * view)%type (fun a b => bltb (slice (m_line m) (fst a)) (slice (m_line m) (fst b))) (m_labels m))
      (m_value m) (m_ms m).

  (** prometheus/metricset.go:76-78 metricKey, and the metric with its labels now sorted. *)
  Definition metricKey (m : metric) : bytes * metric :=
    let m' := sort_views m in (Name m' ++ labels_text (Labels m'), m').

  Definition mset := list (bytes * metric).

  (** prometheus/metricset.go:53-55 Update. *)
  Definition Update (set : mset) (m : metric) : mset :=
    let km := metricKey m in map_put (fst km) (snd km) set.

  Inductive psres :=
  | PsErr
  | PsPanic
  | PsOk (set : mset).

  (** prometheus/parse.go:29-38: the loop over the lines. *)
  Fixpoint parse_lines (lines : list bytes) (set : mset) : psres :=
    match lines with
    | [] => PsOk set
    | [] :: r => parse_lines r set
    | line :: r =>
        match ParseMetric line with
        | MErr => PsErr
        | MPanic => PsPanic
        | MOk m => parse_lines r (Update set m)
        end
    end.

  (** prometheus/parse.go:27-40 ParseMetrics. *)
  Definition ParseMetrics (s : bytes) : psres := parse_lines (split_nl s) [].

  (** prometheus/metric.go:37-46 ToBytes of a parsed metric: the text, and the metric afterwards.
      The text of the labels is complete before anything is written.  bytes.Buffer writes over the
      line as long as its capacity suffices; the text is never longer than the line (proved as
      render_fits), so it always ends up in the line's memory. *)
  Definition ToBytes (m : metric) : bytes * metric :=
    let m' := sort_views m in
    let out := metric_bytes (Name m') (Labels m') (m_value m') (m_ms m') in
    (out, Metric (if Nat.leb (length out) (length (m_line m)) then out ++ skipn (length out) (m_line m) else m_line m)
             (m_name m') (m_labels m') (m_value m') (m_ms m')).

  (** prometheus/metricset.go:68-73: the loop over the sorted keys. *)
  Fixpoint render_keys (keys : list bytes) (set : mset) : bytes * mset :=
    match keys with
    | [] => ([], set)
    | k :: r =>
        match map_get k set with
        | None => render_keys r set
        | Some m =>
            let (out, m') := ToBytes m in
            let (outs, set') := render_keys r (map_put k m' set) in
            (out ++ [nl] ++ outs, set')
        end
    end.

  (** prometheus/metricset.go:62-74 ToBytes. *)
  Definition SetToBytes (set : mset) : bytes * mset := render_keys (gosort bytes bltb (map fst set)) set.

  (** What happens to a monitor: a message on the monitor subject (with the order in which the
      runtime iterates over the map of the parsed metrics, metricset.go:46), or a GET of /metrics. *)
  Inductive mevent :=
  | EMsg (data : bytes) (order : list metric -> list metric)
  | EGet.

  (** monitor/monitor.go:142-152 receiveMetrics with metricset.go:44-50, 59-63, and the handler 114-121.
      Both hold the mutex while they use the set; parsing touches only the new message.
      [None]: the process panicked.  The result of a step is the response of a GET. *)
  Definition mon_step (set : mset) (e : mevent) : option (mset * option bytes) :=
    match e with
    | EMsg data order =>
        match ParseMetrics data with
        | PsErr => Some (set, None)
        | PsPanic => None
        | PsOk new => Some (fold_left Update (order (map snd new)) set, None)
        end
    | EGet => let (out, set') := SetToBytes set in Some (set', Some out)
    end.

  (** A history of the monitor, from its start (monitor.go:34-39: an empty set); the responses of the GETs. *)
  Fixpoint mon_run (set : mset) (evs : list mevent) : option (mset * list bytes) :=
    match evs with
    | [] => Some (set, [])
    | e :: r =>
        match mon_step set e with
        | None => None
        | Some (set', o) =>
            match mon_run set' r with
            | None => None
            | Some (set'', outs) => Some (set'', match o with None => outs | Some b => b :: outs end)
            end
        end
    end.
End Monitor.

(** stats/prometheus.go reads its labels through metrics that own their texts; the same type of
    texts is what [MetricToBytes] renders. *)

(* ------------------------------------------------------------------ *)
(** * Label slices shared between metrics (stats/prometheus.go, the statisticians) *)

Section Slices.
  Variable gosort : forall A : Type, (A -> A -> bool) -> list A -> list A.

  (** Go rounds the capacity of a new array up to an allocation size class. *)
  Variable roundcap : nat -> nat.

  Definition label := (bytes * bytes)%type.

  (** The arrays allocated so far; the length of an array is its capacity. *)
  Definition heap := list (list label).

  (** A Labels value: the array and the length of the slice.  (All slices in this code start at
      the beginning of their array.) *)
  Record lslice := LSlice { ls_arr : nat; ls_len : nat }.

  Definition content (h : heap) (s : lslice) : list label := firstn (ls_len s) (nth (ls_arr s) h []).

  Fixpoint set_at {A} (l : list A) (i : nat) (x : A) : list A :=
    match l, i with
    | [], _ => []
    | _ :: r, O => x :: r
    | y :: r, S j => y :: set_at r j x
    end.

  (** A composite literal such as stats/prometheus.go:30-34: a new array of exactly that length. *)
  Definition new_slice (h : heap) (ls : list label) : heap * lslice := (h ++ [ls], LSlice (length h) (length ls)).

  (** prometheus/labels.go:64-69 With: Go's append writes into the array when there is room, else it
      copies to a new array of twice the capacity (runtime.growslice below 1024 elements; at least
      one more), rounded up. *)
  Definition With (h : heap) (s : lslice) (n v : bytes) : heap * lslice :=
    let arr := nth (ls_arr s) h [] in
    if Nat.ltb (ls_len s) (length arr) then
      (set_at h (ls_arr s) (set_at arr (ls_len s) (n, v)), LSlice (ls_arr s) (ls_len s + 1))
    else
      let newcap := roundcap (Nat.max (ls_len s + 1) (2 * length arr)) in
      (h ++ [content h s ++ [(n, v)] ++ repeat ([], []) (newcap - (ls_len s + 1))],
       LSlice (length h) (ls_len s + 1)).

  (** prometheus/labels.go:57-61 sort, in place on the shared array. *)
  Definition sort_slice (h : heap) (s : lslice) : heap :=
    let arr := nth (ls_arr s) h [] in
    set_at h (ls_arr s) (sort_labels gosort (firstn (ls_len s) arr) ++ skipn (ls_len s) arr).

  (** stats/prometheus.go:54-62 CounterToPrometheus on a label slice: the text, and the heap after the
      sort done while rendering (metric.go:40 with labels.go:43). *)
  Definition counter_text (h : heap) (s : lslice) (name : bytes) (value nanos : Z) : bytes * heap :=
    let h' := sort_slice h s in
    (metric_bytes name (content h' s) value (timeToMillis nanos), h').

  (** The loop over subscriptions, subjects or rules (writer/writer.go:263-275, downsampler/downsampler.go:199-206,
      filter/filter.go:180-187): one counter per item, labelled with the item. *)
  Fixpoint per_item (h : heap) (base : lslice) (name lname : bytes) (items : list (bytes * Z)) (nanos : Z)
    : list bytes * heap :=
    match items with
    | [] => ([], h)
    | (item, value) :: r =>
        let (h1, s) := With h base lname item in
        let (txt, h2) := counter_text h1 s name value nanos in
        let (txts, h3) := per_item h2 base name lname r nanos in
        (txt :: txts, h3)
    end.

  (** One round of a statistician: the snapshot (which sorts the base labels: at least one metric is
      rendered) and then the counters per item. *)
  Definition stat_round (h : heap) (base : lslice) (snap : list (bytes * Z)) (name lname : bytes)
    (items : list (bytes * Z)) (nanos : Z) : (bytes * list bytes) * heap :=
    let h1 := sort_slice h base in
    let txt := SnapshotToPrometheus gosort snap nanos (content h1 base) in
    let (txts, h2) := per_item h1 base name lname items nanos in
    ((txt, txts), h2).

  (** The rounds of a statistician: (snapshot, items, time) of every round. *)
  Fixpoint stat_rounds (h : heap) (base : lslice) (name lname : bytes)
    (rounds : list (list (bytes * Z) * list (bytes * Z) * Z)) : list (bytes * list bytes) :=
    match rounds with
    | [] => []
    | (snap, items, nanos) :: r =>
        let (out, h') := stat_round h base snap name lname items nanos in
        out :: stat_rounds h' base name lname r
    end.

  (** filter/filter.go:167 and downsampler/downsampler.go:188. *)
  Definition base3 (hostname component name : bytes) : heap * lslice :=
    new_slice [] (NewLabels hostname component name).

  (** writer/writer.go:250-253. *)
  Definition base_writer (hostname name addr port db : bytes) : heap * lslice :=
    let (h, s) := new_slice [] (NewLabels hostname (lit "writer") name) in
    let (h1, s1) := With h s (lit "influxdb_address") addr in
    let (h2, s2) := With h1 s1 (lit "influxdb_port") port in
    With h2 s2 (lit "influxdb_dbname") db.
End Slices.
