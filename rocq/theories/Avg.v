(** Model of downsampler/avgbucket.go. *)
From Verif Require Import Base Text Convert.
Local Open Scope Z_scope.

(** float64 arithmetic, strconv.ParseFloat and strconv.AppendFloat are taken as given. *)
Record floatOps := mkFloatOps {
  fT : Type;
  f_add : fT -> fT -> fT; f_sub : fT -> fT -> fT; f_div : fT -> fT -> fT;
  f_ofint : Z -> fT;
  f_parse : bytes -> option fT;          (* strconv.ParseFloat(s, 64); None: error *)
  f_format : fT -> bytes                 (* strconv.AppendFloat(nil, v, 'g', -1, 64) *)
}.

(** Go maps: association lists without duplicate keys. *)
Section Map.
  Context {V : Type}.
  Fixpoint mget (m : list (bytes * V)) (k : bytes) : option V :=
    match m with
    | [] => None
    | (k', v) :: m' => if beqs k' k then Some v else mget m' k
    end.
  Fixpoint mset (m : list (bytes * V)) (k : bytes) (v : V) : list (bytes * V) :=
    match m with
    | [] => [(k, v)]
    | (k', v') :: m' => if beqs k' k then (k', v) :: m' else (k', v') :: mset m' k v
    end.
End Map.

(** The errors AddLine reports; the texts are not modelled. *)
Inductive lerr := EInvalidField | EMissingValue | EQuoted | EWrongType.

Section Avg.
  Variable fo : floatOps.

  (** downsampler/avgbucket.go:198-201, 222-225, 243, 253. *)
  Inductive fieldValue :=
  | VInt (average count : Z)
  | VFloat (average : fT fo) (count : Z)
  | VString (b : bytes)
  | VRaw (b : bytes).

  (** v[:len(v)-1] when v has at least two bytes and ends in 'i' (avgbucket.go:177, 204). *)
  Definition int_body (v : bytes) : option bytes :=
    if (2 <=? Z.of_nat (length v)) && Ascii.eqb (last v "000"%char) "i"%char then Some (removelast v) else None.

  (** convert.ToInt of the body. *)
  Definition parse_int (v : bytes) : option Z :=
    match int_body v with Some b => ToInt b | None => None end.

  (** downsampler/avgbucket.go:176-192 newFieldValue. *)
  Definition newFieldValue (v : bytes) : fieldValue :=
    match parse_int v with
    | Some iv => VInt iv 1
    | None => match f_parse fo v with Some fv => VFloat fv 1 | None => VRaw v end
    end.

  (** downsampler/avgbucket.go:203-216, 227-237, 245-248, 255-258: update; None is an error and
      leaves the value as it is. int64 arithmetic wraps, division truncates. *)
  Definition updateValue (v : fieldValue) (b : bytes) : option fieldValue :=
    match v with
    | VInt avg count =>
        match parse_int b with
        | None => None
        | Some bi =>
            let count := wrap64 (count + 1) in
            Some (VInt (wrap64 (avg + wrap64 (Z.quot (wrap64 (bi - avg)) count))) count)
        end
    | VFloat avg count =>
        match f_parse fo b with
        | None => None
        | Some bf =>
            let count := wrap64 (count + 1) in
            Some (VFloat (f_add fo avg (f_div fo (f_sub fo bf avg) (f_ofint fo count))) count)
        end
    | VString _ => Some (VString b)
    | VRaw _ => Some (VRaw b)
    end.

  (** downsampler/avgbucket.go:218-220, 239-241, 249-251, 259. *)
  Definition valueBytes (v : fieldValue) : bytes :=
    match v with
    | VInt avg _ => FormatInt avg ++ lit "i"
    | VFloat avg _ => f_format fo avg
    | VString b => EscapeQuotedString b
    | VRaw b => b
    end.

  (** downsampler/avgbucket.go:86-88 fieldPairs. *)
  Definition fieldPairs := list (bytes * fieldValue).

  (** downsampler/avgbucket.go:118-127 and :131-140: create or update one field. *)
  Definition put_field (fp : fieldPairs) (name : bytes) (quoted : bool) (rawValue : bytes) : fieldPairs * list lerr :=
    match mget fp name with
    | None => (mset fp name (if quoted then VString rawValue else newFieldValue rawValue), [])
    | Some v =>
        match updateValue v rawValue with
        | None => (fp, [EWrongType])
        | Some v' => (mset fp name v', [])
        end
    end.

  (** downsampler/avgbucket.go:94-144 update.  Every iteration consumes at least one byte, so
      the fuel S (length raw) is never used up. *)
  Fixpoint update_loop (fuel : nat) (fp : fieldPairs) (raw : bytes) : fieldPairs * list lerr :=
    match fuel with
    | O => (fp, [])
    | S f =>
        match raw with
        | [] => (fp, [])
        | _ :: raw1 =>
            let (name, raw2) := TokenEscaped (lit "=") raw1 in
            match raw2 with
            | [] => (fp, [EInvalidField])
            | c :: raw3 =>
                if negb (Ascii.eqb c eqs) then (fp, [EInvalidField])
                else
                  match raw3 with
                  | [] => (fp, [EMissingValue])
                  | d :: _ =>
                      if Ascii.eqb d dq then
                        match QuotedString raw3 with
                        | QOk value raw4 =>
                            let (fp1, e1) := put_field fp name true value in
                            let (fp2, e2) := update_loop f fp1 raw4 in
                            (fp2, e1 ++ e2)
                        | _ => (fp, [EQuoted])
                        end
                      else
                        let (value, raw4) := Token (lit ",") raw3 in
                        let (fp1, e1) := put_field fp name false value in
                        let (fp2, e2) := update_loop f fp1 raw4 in
                        (fp2, e1 ++ e2)
                  end
            end
        end
    end.
  Definition updateFields (fp : fieldPairs) (raw : bytes) : fieldPairs * list lerr :=
    update_loop (S (length raw)) fp raw.

  (** downsampler/avgbucket.go:35-38 avgBucket; the end time is kept by the assigner model. *)
  Definition avgBucket := list (bytes * fieldPairs).

  (** downsampler/avgbucket.go:44-60 AddLine.  A found fieldPairs is updated through its
      pointer even when there are errors. *)
  Definition AddLine (b : avgBucket) (line : bytes) : avgBucket * list lerr :=
    let (key, raw) := TokenEscaped (lit " ") line in
    match mget b key with
    | Some fields => let (fields', errs) := updateFields fields raw in (mset b key fields', errs)
    | None =>
        let (fields', errs) := updateFields [] raw in
        match errs with [] => (mset b key fields', []) | _ => (b, errs) end
    end.

  (** sort.Strings. *)
  Variable gosort : forall A : Type, (A -> A -> bool) -> list A -> list A.

  (** downsampler/avgbucket.go:157-167: the loop of bytes over the sorted names; a name that
      is not in the map cannot occur. *)
  Fixpoint fields_loop (fp : fieldPairs) (names : list bytes) : bytes :=
    match names with
    | [] => []
    | n :: ns =>
        n ++ [eqs] ++ match mget fp n with Some v => valueBytes v | None => [] end
          ++ match ns with [] => [] | _ => comma :: fields_loop fp ns end
    end.

  (** downsampler/avgbucket.go:146-169 bytes; [names] is the map's iteration order. *)
  Definition fieldsBytes (fp : fieldPairs) (names : list bytes) : bytes :=
    match fp with [] => [] | _ => fields_loop fp (gosort bytes bltb names) end.

  (** downsampler/avgbucket.go:62-78 Bytes; [order] is the map's iteration order, with the
      iteration order of each series' fields; [ts] is EndTime().UnixNano(). *)
  Fixpoint bucketBytes (ts : Z) (order : list (bytes * fieldPairs * list bytes)) : bytes :=
    match order with
    | [] => []
    | (key, fields, names) :: order' =>
        key ++ [sp] ++
        match fieldsBytes fields names with [] => [] | fb => fb ++ [sp] end ++
        FormatInt (wrap64 ts) ++ [nl] ++ bucketBytes ts order'
    end.

  (** [order] is a possible iteration over the bucket [b]. *)
  Definition iteration_of (b : avgBucket) (order : list (bytes * fieldPairs * list bytes)) : Prop :=
    Permutation b (map fst order) /\ Forall (fun e => Permutation (map fst (snd (fst e))) (snd e)) order.
End Avg.
