(** The tactic for tables of test vectors: each case is closed by computation (Conf*.v). *)
From Coq Require Import List.
Ltac one_case := vm_compute; first [reflexivity | discriminate | split; reflexivity].
Ltac table := repeat (apply Forall_cons; [one_case|]); apply Forall_nil.
