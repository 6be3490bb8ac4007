(** Points and what a downsampled period should say about them, independent of the code. *)
From Verif Require Import Base TextSpec NumSpec Avg.
Local Open Scope Z_scope.

(** Every occurrence of [d] in [s] but a leading one is escaped, and [s] cannot swallow what follows. *)
Definition shielded (d : ascii) (s : bytes) : Prop :=
  s <> [] /\ ~ ends_in bsl s /\ forall p q, s = p ++ d :: q -> p <> [] -> ends_in bsl p.

(** A bare token: not empty, without comma, backslash, space or newline, not starting with a quote. *)
Definition bare (s : bytes) : Prop :=
  s <> [] /\ (forall c, In c [comma; bsl; sp; nl] -> ~ In c s) /\ forall r, s <> dq :: r.

(** Integers "12i", other numbers, strings, anything else (booleans). *)
Inductive fval := FInt (txt : bytes) (z : Z) | FNum (txt : bytes) | FStr (s : bytes) | FTok (txt : bytes).

(** How the value is written in a line. *)
Definition vtext (v : fval) : bytes :=
  match v with
  | FInt txt _ => txt ++ lit "i"
  | FNum txt | FTok txt => txt
  | FStr s => dq :: esc_spec [dq] s ++ [dq]
  end.

(** The value itself, without quotes. *)
Definition vraw (v : fval) : bytes :=
  match v with FInt txt _ => txt ++ lit "i" | FNum txt | FTok txt => txt | FStr s => s end.

Definition is_str (v : fval) : bool := match v with FStr _ => true | _ => false end.

(** A measurement+tags key and the named field values. *)
Definition point := (bytes * list (bytes * fval))%type.

Fixpoint join_comma (l : list bytes) : bytes :=
  match l with [] => [] | [x] => x | x :: l' => x ++ comma :: join_comma l' end.
Definition field_text (f : bytes * fval) : bytes := fst f ++ eqs :: vtext (snd f).
Definition point_text (pt : point) : bytes := fst pt ++ sp :: join_comma (map field_text (snd pt)).

Section Spec.
  Variable fo : floatOps.

  Definition good_val (v : fval) : Prop :=
    match v with
    | FInt txt z => int_text txt z /\ int64 z
    | FNum txt => bare txt /\ ~ ends_in "i"%char txt /\ exists x, f_parse fo txt = Some x
    | FStr s => ~ ends_in bsl s /\ (~ In dq s \/ ~ has_pair bsl [comma; sp; eqs] s) /\
                forall t z, s = t ++ lit "i" -> int_text t z -> Z.abs z < 2 ^ 64
    | FTok txt => bare txt /\ f_parse fo txt = None /\ ~ exists t z, txt = t ++ lit "i" /\ int_text t z
    end.
  Definition good_point (pt : point) : Prop :=
    shielded sp (fst pt) /\ snd pt <> [] /\ NoDup (map fst (snd pt)) /\
    Forall (fun f => shielded eqs (fst f) /\ good_val (snd f)) (snd pt).
End Spec.

(** The values given for field [n] of series [k], in order. *)
Definition values (k n : bytes) (pts : list point) : list fval :=
  flat_map (fun pt : point => if beqs (fst pt) k then
      flat_map (fun f : bytes * fval => if beqs (fst f) n then [snd f] else []) (snd pt) else []) pts.

Definition zsum (zs : list Z) : Z := fold_right Z.add 0 zs.

(** The integer a value reads as: None for everything that is not an integer "12i" in range. *)
Definition reads_int (v : fval) (o : option Z) : Prop :=
  match o with
  | Some z => exists t, vraw v = t ++ lit "i" /\ int_text t z /\ int64 z
  | None => ~ exists t z, vraw v = t ++ lit "i" /\ int_text t z /\ int64 z
  end.

(** Running average in int64 arithmetic (wrapping, division towards zero):
    a_1 = z_1, a_c = a_(c-1) + (z_c - a_(c-1)) / c; values that are not integers are skipped. *)
Fixpoint int_running (avg c : Z) (os : list (option Z)) : Z :=
  match os with
  | [] => avg
  | None :: os' => int_running avg c os'
  | Some z :: os' => int_running (wrap64 (avg + wrap64 (Z.quot (wrap64 (z - avg)) (wrap64 (c + 1))))) (wrap64 (c + 1)) os'
  end.

Definition somes {A} (os : list (option A)) : list A := flat_map (fun o => match o with Some a => [a] | None => [] end) os.

Section Summary.
  Variable fo : floatOps.
  (** The same in floating point: values that do not parse as a float are skipped. *)
  Fixpoint float_running (avg : fT fo) (c : Z) (xs : list (option (fT fo))) : fT fo :=
    match xs with
    | [] => avg
    | None :: xs' => float_running avg c xs'
    | Some x :: xs' => float_running (f_add fo avg (f_div fo (f_sub fo x avg) (f_ofint fo (wrap64 (c + 1))))) (wrap64 (c + 1)) xs'
    end.

  (** [txt] is what a period's output says about a field that received the values [vs]. *)
  Inductive summarises : list fval -> bytes -> Prop :=
  | sum_str s vs : summarises (FStr s :: vs) (dq :: esc_spec [dq] (last (map vraw vs) s) ++ [dq])
  | sum_tok t vs : summarises (FTok t :: vs) (last (map vraw vs) t)
  | sum_int t z vs os txt : Forall2 reads_int vs os -> dec_text (int_running z 1 os) txt ->
      summarises (FInt t z :: vs) (txt ++ lit "i")
  | sum_num t x vs : f_parse fo t = Some x ->
      summarises (FNum t :: vs) (f_format fo (float_running x 1 (map (fun v => f_parse fo (vraw v)) vs))).

  (** One output line: key, fields in strictly ascending name order, end of the period. *)
  Definition series_line (pts : list point) (end_ : Z) (k line : bytes) : Prop :=
    exists (fields : list (bytes * bytes)) (tstxt : bytes), fields <> [] /\
      (forall i j a b, (i < j)%nat -> nth_error (map fst fields) i = Some a -> nth_error (map fst fields) j = Some b -> bltb a b = true) /\
      (forall n, In n (map fst fields) <-> values k n pts <> []) /\
      Forall (fun f => summarises (values k (fst f) pts) (snd f)) fields /\
      dec_text end_ tstxt /\
      line = k ++ sp :: join_comma (map (fun f => fst f ++ eqs :: snd f) fields) ++ sp :: tstxt ++ [nl].
End Summary.

(** The values of each field of each series are all of the same kind. *)
Definition kind (v : fval) : nat := match v with FInt _ _ => 0 | FNum _ => 1 | FStr _ => 2 | FTok _ => 3 end.
Definition consistent (pts : list point) : Prop :=
  forall k n v w, In v (values k n pts) -> In w (values k n pts) -> kind v = kind w.

(** Weaker: no field starts as a boolean (or other bare word) and ends as a string that could not stand without its quotes. *)
Definition settled (fo : floatOps) (pts : list point) : Prop :=
  forall k n t vs s, values k n pts = FTok t :: vs -> last vs (FTok t) = FStr s -> exists v, good_val fo v /\ vtext v = s.

(** Formatting a float gives a bare text that parses again. *)
Definition formats_well (fo : floatOps) : Prop := forall x, good_val fo (FNum (f_format fo x)).

(** A point written with its timestamp on a line of its own. *)
Definition stamped_line (end_ : Z) (pt : point) (line : bytes) : Prop :=
  exists tstxt, dec_text end_ tstxt /\ line = point_text pt ++ sp :: tstxt ++ [nl].
