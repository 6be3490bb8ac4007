(** What a batch is supposed to be: the data written since the last reset, the number of
    writes and the time of the first one. *)
From Verif Require Import Base.
Local Open Scope Z_scope.

Record abatch := mkA { a_data : bytes; a_writes : Z; a_first : option Z }.

(** Observable events of a batch's life. [EvWrite d t]: a write operation added data d at
    time t; [EvNewline]: a newline was requested; [EvReset]. *)
Inductive ev := EvWrite (d : bytes) (t : Z) | EvNewline | EvReset.

Definition a_empty : abatch := mkA [] 0 None.

(** data with a newline added if it is non-empty and lacks one *)
Definition with_nl (d : bytes) : bytes :=
  match rev d with [] => [] | c :: _ => if Ascii.eqb c nl then d else d ++ [nl] end.

Definition a_step (a : abatch) (e : ev) : abatch :=
  match e with
  | EvWrite d t => mkA (a_data a ++ d) (a_writes a + 1) (match a_first a with None => Some t | x => x end)
  | EvNewline => mkA (with_nl (a_data a)) (a_writes a) (a_first a)
  | EvReset => a_empty
  end.

Definition a_run (es : list ev) : abatch := fold_left a_step es a_empty.
