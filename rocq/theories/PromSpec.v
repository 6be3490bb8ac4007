(** Specification of the metric lines exchanged between the components and the monitor, and of
    what the monitor serves.  Written without reference to the parser. *)
From Verif Require Import Base Convert Prom RulesSpec.
Local Open Scope Z_scope.

(** No equals sign immediately followed by a double quote. *)
Definition no_eqdq (s : bytes) : Prop := forall p q, s <> p ++ eqs :: dq :: q.

(** The text of one label: name="value". *)
Definition label_item (n v : bytes) : bytes := n ++ [eqs; dq] ++ v ++ [dq].

(** The text of a non-empty list of labels (without the braces). *)
Inductive label_items : bytes -> list (bytes * bytes) -> Prop :=
| items_one n v : no_eqdq n -> ~ In dq v -> label_items (label_item n v) [(n, v)]
| items_more n v u ls : no_eqdq n -> ~ In dq v -> label_items u ls ->
    label_items (label_item n v ++ [comma] ++ u) ((n, v) :: ls).

(** The optional part of a line between the name and the value. *)
Inductive label_part : bytes -> list (bytes * bytes) -> Prop :=
| part_empty x : label_part [lbrace; rbrace; x] []
| part_some u ls x : label_items u ls -> hd_error u <> Some rbrace ->
    label_part ([lbrace] ++ u ++ [rbrace; x]) ls
| part_none : label_part [sp] [].

(** The value and the optional timestamp; no timestamp reads as 0. *)
Inductive numbers : bytes -> Z -> Z -> Prop :=
| num_value t v : ~ In sp t -> ToInt t = Some v -> numbers t v 0
| num_both t v t' ms : ~ In sp t -> ToInt t = Some v -> ToInt t' = Some ms ->
    numbers (t ++ [sp] ++ t') v ms.

(** What a line says: name, labels (in the order of the line), value and timestamp. *)
Record entry := Entry { e_name : bytes; e_labels : list (bytes * bytes); e_value : Z; e_ms : Z }.

(** [reads line e]: the line is well formed and says e.  Three bytes is the least the code accepts. *)
Definition reads (line : bytes) (e : entry) : Prop :=
  (3 <= length line)%nat /\ ~ In sp (e_name e) /\ ~ In lbrace (e_name e) /\
  exists lp num, line = e_name e ++ lp ++ num /\ label_part lp (e_labels e) /\ numbers num (e_value e) (e_ms e).

(** Labels whose names are strictly increasing. *)
Definition increasing (ls : list (bytes * bytes)) : Prop :=
  forall i j a b, (i < j)%nat -> nth_error ls i = Some a -> nth_error ls j = Some b -> bltb (fst a) (fst b) = true.

(** The labels of an entry in order of their names. *)
Definition ordered_labels (ls ls' : list (bytes * bytes)) : Prop := Permutation ls ls' /\ increasing ls'.

(** The identity of a metric as a text: name{label="value",...} with the labels in the order given. *)
Fixpoint join_labels (ls : list (bytes * bytes)) : bytes :=
  match ls with
  | [] => []
  | [(n, v)] => label_item n v
  | (n, v) :: r => label_item n v ++ [comma] ++ join_labels r
  end.
Definition identity (name : bytes) (ls : list (bytes * bytes)) : bytes := name ++ [lbrace] ++ join_labels ls ++ [rbrace].

(** The line served for a metric: braces only when there are labels, timestamp only when positive. *)
Definition served_line (name : bytes) (ls : list (bytes * bytes)) (v ms : Z) : bytes :=
  (match ls with [] => name | _ => identity name ls end) ++ [sp] ++ FormatInt v ++
  (if 0 <? ms then [sp] ++ FormatInt ms else []).

(** The non-empty lines of a message. *)
Definition message_lines (data : bytes) (lines : list bytes) : Prop :=
  Forall (fun l => ~ In nl l) lines /\
  exists pieces, data = concat (map (fun p => p ++ [nl]) (removelast pieces)) ++ last pieces [] /\
    pieces <> [] /\ Forall (fun l => ~ In nl l) pieces /\
    lines = filter (fun l => match l with [] => false | _ => true end) pieces.

(** A message whose non-empty lines are all well formed says these entries. *)
Definition says (data : bytes) (es : list entry) : Prop :=
  exists lines, message_lines data lines /\ Forall2 reads lines es.

(** The entries a monitor has accepted after some events: those of the valid messages, in order. *)
Inductive accepted : list mevent -> list entry -> Prop :=
| acc_nil : accepted [] []
| acc_get evs es : accepted evs es -> accepted (evs ++ [EGet]) es
| acc_valid evs es data order new : accepted evs es -> says data new -> accepted (evs ++ [EMsg data order]) (es ++ new)
| acc_invalid evs es data order : accepted evs es -> (forall new, ~ says data new) -> accepted (evs ++ [EMsg data order]) es.

(** The last entry for a metric (name and labels regardless of their order). *)
Definition latest (es : list entry) (name : bytes) (ls : list (bytes * bytes)) (v ms : Z) : Prop :=
  exists a e b, es = a ++ e :: b /\ e_name e = name /\ Permutation (e_labels e) ls /\ e_value e = v /\ e_ms e = ms /\
    Forall (fun e' => ~ (e_name e' = name /\ Permutation (e_labels e') ls)) b.

(** What /metrics has to answer after the entries es: one line per metric, ordered by identity. *)
Definition right_answer (es : list entry) (answer : bytes) : Prop :=
  exists served : list entry,
    answer = concat (map (fun e => served_line (e_name e) (e_labels e) (e_value e) (e_ms e) ++ [nl]) served) /\
    (forall i j a b, (i < j)%nat -> nth_error served i = Some a -> nth_error served j = Some b ->
       bltb (identity (e_name a) (e_labels a)) (identity (e_name b) (e_labels b)) = true) /\
    Forall (fun e => increasing (e_labels e)) served /\
    (forall name ls v ms, increasing ls -> (In (Entry name ls v ms) served <-> latest es name ls v ms)).

(** The label lists a parser stops at the end of: complete labels, but nothing behind them. *)
Definition breaks_off (t : bytes) : Prop :=
  t = [] \/ t = [rbrace] \/
  exists u ls, label_items u ls /\ hd_error u <> Some rbrace /\ (t = u \/ t = u ++ [rbrace]).

(** A name or label text that survives the wire format. *)
Definition plain_name (n : bytes) : Prop := n <> [] /\ ~ In sp n /\ ~ In lbrace n /\ ~ In nl n.
Definition plain_label (l : bytes * bytes) : Prop :=
  no_eqdq (fst l) /\ ~ In nl (fst l) /\ hd_error (fst l) <> Some rbrace /\ ~ In dq (snd l) /\ ~ In nl (snd l).

(** What a component reports: the counters of a snapshot, or one counter; with the time and its labels. *)
Inductive report :=
| RSnapshot (counters : list (bytes * Z)) (nanos : Z) (ls : list (bytes * bytes))
| RCounter (name : bytes) (value nanos : Z) (ls : list (bytes * bytes)).

(** Reasonable reports: distinct names, texts free of the bytes that structure a line. *)
Definition report_ok (r : report) : Prop :=
  match r with
  | RSnapshot counters nanos ls =>
      NoDup (map fst counters) /\ Forall (fun c : bytes * Z => plain_name (fst c)) counters /\
      Forall plain_label ls /\ NoDup (map fst ls) /\ int64 nanos
  | RCounter name value nanos ls =>
      plain_name name /\ Forall plain_label ls /\ NoDup (map fst ls) /\ int64 value /\ int64 nanos
  end.

(** The entries a report stands for: every counter with the labels ordered by name, its value (a uint64 shown
    as int64) and the time in whole milliseconds (0 for times before 1970). *)
Definition reported (r : report) (es : list entry) : Prop :=
  match r with
  | RSnapshot counters nanos ls =>
      exists ls', ordered_labels ls ls' /\
        Permutation es (map (fun c : bytes * Z => Entry (fst c) ls' (wrap64 (snd c)) (Z.max 0 (Z.quot nanos 1000000))) counters)
  | RCounter name value nanos ls =>
      exists ls', ordered_labels ls ls' /\ es = [Entry name ls' value (Z.max 0 (Z.quot nanos 1000000))]
  end.

(** The lines that make the parser run off their end: at least three bytes, and after the first brace the labels
    break off without a byte behind the closing brace. *)
Definition truncated (line : bytes) : Prop :=
  (3 <= length line)%nat /\ exists name t, line = name ++ lbrace :: t /\ ~ In sp name /\ ~ In lbrace name /\ breaks_off t.

(** What one round of a statistician has to publish: the snapshot with the component's labels, and per item a
    counter with the component's labels and one label naming the item (in any order: rendering sorts them). *)
Definition labelled_round (gs : forall A : Type, (A -> A -> bool) -> list A -> list A) (base : list (bytes * bytes)) (cname lname : bytes)
  (round : list (bytes * Z) * list (bytes * Z) * Z) (out : bytes * list bytes) : Prop :=
  let '(snap, items, nanos) := round in
  (exists ls, Permutation base ls /\ fst out = SnapshotToPrometheus gs snap nanos ls) /\
  Forall2 (fun (item : bytes * Z) txt => exists ls, Permutation (base ++ [(lname, fst item)]) ls /\
             txt = CounterToPrometheus gs cname (snd item) nanos ls) items (snd out).
