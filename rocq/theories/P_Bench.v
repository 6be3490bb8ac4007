(** C91: benchcheck. *)
From Verif Require Import Base Convert Bench.
Local Open Scope Z_scope.

(** For metrics that are costs (time, allocations) benchcheck fails exactly when some benchmark became worse, significantly and by more than the limit. *)
Theorem C91_costs_partial : forall parseFloat limit tables, reads_back parseFloat -> Forall (Forall plausible) tables ->
  (forall t m, In t tables -> In m t -> more_is_better m = false) ->
  (benchcheck parseFloat limit (map (map delta_text) tables) = 1 <-> exists t m, In t tables /\ In m t /\ regressed limit m).
Proof. exact benchcheck_costs. Qed.
Print Assumptions C91_costs_partial.

(** In general it fails exactly when some number went up by more than the limit, and otherwise reports success. *)
Theorem C91_exact : forall parseFloat limit tables, reads_back parseFloat -> Forall (Forall plausible) tables ->
  (benchcheck parseFloat limit (map (map delta_text) tables) = 1 <-> exists t m h, In t tables /\ In m t /\ change m = Some h /\ limit < h) /\
  (benchcheck parseFloat limit (map (map delta_text) tables) = 1 \/ benchcheck parseFloat limit (map (map delta_text) tables) = 0).
Proof. exact benchcheck_iff. Qed.
Print Assumptions C91_exact.

(** So for speeds it is the wrong way round: every improvement beyond the limit is an error, no deterioration is. *)
Theorem C91_speed_refuted : forall parseFloat limit h, reads_back parseFloat -> fits h -> 0 <= limit < h ->
  let better := Measured true (Some h) in let worse := Measured true (Some (- h)) in
  benchcheck parseFloat limit [[delta_text better]] = 1 /\ ~ regressed limit better /\
  benchcheck parseFloat limit [[delta_text worse]] = 0 /\ regressed limit worse.
Proof. exact benchcheck_speed. Qed.
Print Assumptions C91_speed_refuted.

(** The hypothesis on the parser can be met. *)
Theorem C91_reads_back : reads_back read_delta.
Proof. exact read_delta_back. Qed.
Print Assumptions C91_reads_back.

Example C91_texts : delta_text (Measured false (Some 1234)) = lit "+12.34%" /\ delta_text (Measured false (Some (-5))) = lit "-0.05%" /\
  delta_text (Measured false (Some 0)) = lit "0.00%" /\ delta_text (Measured false None) = lit "~".
Proof. repeat split; vm_compute; reflexivity. Qed.
Example C91_case : benchcheck read_delta 1000 [[lit "~"; lit "+9.99%"]; [lit "-50.00%"; lit "+10.01%"]] = 1 /\
  benchcheck read_delta 1000 [[lit "~"; lit "+9.99%"]; [lit "-50.00%"; lit "+10.00%"]] = 0.
Proof. split; vm_compute; reflexivity. Qed.
