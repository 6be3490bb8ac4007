(** C89: what InfluxDB holds when answers get lost and batches are sent again. *)
From Verif Require Import Base LinesSpec Text Rules Retry RetrySpec Batch Convert Writer WriterSpec EndToEnd Store.
Local Open Scope Z_scope.

(** Everything settled: for lines that carry their time stamps and do not contradict each other, InfluxDB holds exactly the points of the
    lines the writers received, whichever of the unacknowledged attempts it carried out, how often and in which order. *)
Theorem C89_content : forall points ws sts st, Forall plain_writer ws -> Forall settled_ok ws ->
  Forall (fun w => Forall nl_ended (map snd (messages (ww_trace w)))) ws ->
  Forall2 (fun w st => carried_out (attempted (ww_trace w)) st) ws sts -> Permutation st (concat sts) ->
  let lines := flat_map (fun w => flat_map lines_of (map snd (messages (ww_trace w)))) ws in
  Forall (dated points) lines -> consistent points lines ->
  forall k v, db points st k = Some v <-> exists l, In l lines /\ In (k, v) (points 0 l).
Proof. exact stored_content. Qed.
Print Assumptions C89_content.

(** Only what the workers posted for the first time is ever attempted, at any moment. *)
Theorem C89_nothing_else : forall w st, ww_ok w -> carried_out (attempted (ww_trace w)) st ->
  forall b, In b (map snd st) -> In b (bodies (ww_trace w)).
Proof. exact (fun w st Ok Co b H => attempted_bodies w Ok b (carried_sub _ _ Co b H)). Qed.
Print Assumptions C89_nothing_else.

(** An InfluxDB that carries out only what it acknowledges: with multiplicity what C56 counts. *)
Theorem C89_honest : forall tr, carried_out (attempted tr) (map (fun b => (0, b)) (honest (attempted tr))) /\
  Permutation (honest (attempted tr)) (acknowledged tr).
Proof. exact (fun tr => conj (carried_honest _) (honest_acknowledged tr)). Qed.
Print Assumptions C89_honest.

(** A reading of simple lines: measurement, one field and its value, and a time stamp or the time of arrival. *)
Fixpoint words (cur l : bytes) : list bytes :=
  match l with
  | [] => [cur]
  | c :: l' => if Ascii.eqb c nl then [cur] else if memb [sp; eqs] c then cur :: words [] l' else words (cur ++ [c]) l'
  end.
Definition ex_points (t : Z) (l : bytes) : list (bytes * bytes) :=
  match words [] l with
  | [m; f; v] => [(m ++ [sp] ++ f ++ [sp] ++ FormatInt t, v)]
  | [m; f; v; ts] => [(m ++ [sp] ++ f ++ [sp] ++ ts, v)]
  | _ => []
  end.

Definition st_cfg : wcfg := mkWC 1 100 1000 [] 4 60 10.
Definition st_worker (ls : list wlabel) : wworker :=
  match wrun st_cfg (newWorker 0 0) ls with
  | Some (s, tr) => WW st_cfg 0 0 ls s tr
  | None => WW st_cfg 0 0 ls (newWorker 0 0) []
  end.
(** The first answer gets lost, the batch is sent again; meanwhile another batch is written. *)
Definition lost_answer (d d' : bytes) : wworker :=
  st_worker [PMsg 1 1 d; PPost NoResponse 2; PHand 3; PIn 4 4; PMsg 5 5 d'; PPost (Status 204) 6; PRetry (LFire 14 14); PRetry (LEnd 15 WOk)].
Definition d1 : bytes := lit "cpu x=1 100
".
Definition d2 : bytes := lit "cpu x=2 200
".
Definition d3 : bytes := lit "cpu x=3 100
".
Definition u1 : bytes := lit "cpu x=1
".

Lemma lost_runs d d' : (d, d') = (d1, d2) \/ (d, d') = (d1, d3) \/ (d, d') = (u1, d2) ->
  plain_writer (lost_answer d d') /\ settled_ok (lost_answer d d') /\
  attempted (ww_trace (lost_answer d d')) = [(d, false); (d', true); (d, true)] /\
  map snd (messages (ww_trace (lost_answer d d'))) = [d; d'].
Proof.
  intros H. assert (E : ww_cfg (lost_answer d d') = st_cfg /\ ww_cap (lost_answer d d') = 0 /\
    wrun st_cfg (newWorker 0 (ww_now (lost_answer d d'))) (ww_labels (lost_answer d d')) = Some (ww_state (lost_answer d d'), ww_trace (lost_answer d d'))).
  { destruct H as [H|[H|H]]; injection H as -> ->; vm_compute; auto. }
  destruct E as (E1 & E2 & E3). split; [|split; [|split]].
  - split; [|split].
    + split; [rewrite E1; vm_compute; lia|]. split; [rewrite E2; lia|]. rewrite E1, E2. exact E3.
    + rewrite E1. reflexivity.
    + rewrite E1. destruct H as [H|[H|H]]; injection H as -> ->; vm_compute; repeat constructor.
  - destruct H as [H|[H|H]]; injection H as -> ->; (split; [reflexivity|]); (split; [vm_compute; intros X; exfalso; apply X; reflexivity|]); vm_compute; auto.
  - destruct H as [H|[H|H]]; injection H as -> ->; reflexivity.
  - destruct H as [H|[H|H]]; injection H as -> ->; reflexivity.
Qed.

(** The theorem applies to it: stored three times, held once. *)
Example C89_case : let w := lost_answer d1 d2 in let st := [(2, d1); (6, d2); (15, d1)] in
  plain_writer w /\ settled_ok w /\ Forall nl_ended (map snd (messages (ww_trace w))) /\
  carried_out (attempted (ww_trace w)) st /\ Forall (dated ex_points) [d1; d2] /\ consistent ex_points [d1; d2] /\
  db ex_points st (lit "cpu x 100") = Some (lit "1") /\ db ex_points st (lit "cpu x 200") = Some (lit "2").
Proof.
  cbv zeta. destruct (lost_runs d1 d2 (or_introl eq_refl)) as (P & S0 & A & M). split; [exact P|]. split; [exact S0|]. rewrite A, M.
  split; [constructor; [|constructor; [|constructor]]; right; [exists (lit "cpu x=1 100")|exists (lit "cpu x=2 200")]; reflexivity|].
  split; [repeat constructor|]. split; [constructor; [|constructor; [|constructor]]; intros t t'; reflexivity|].
  split; [|split; reflexivity].
  assert (P1 : forall t, ex_points t d1 = [(lit "cpu x 100", lit "1")]) by reflexivity. assert (P2 : forall t, ex_points t d2 = [(lit "cpu x 200", lit "2")]) by reflexivity.
  intros l l' t t' k v v' H H' X X'. assert (N : lit "cpu x 100" <> lit "cpu x 200") by discriminate.
  assert (In1 : forall l t k v, In l [d1; d2] -> In (k, v) (ex_points t l) -> (k = lit "cpu x 100" /\ v = lit "1") \/ (k = lit "cpu x 200" /\ v = lit "2")).
  { intros l0 t0 k0 v0 [<-|[<-|[]]] Y; [rewrite P1 in Y|rewrite P2 in Y]; destruct Y as [Y|[]]; [left|right]; split; congruence. }
  destruct (In1 _ _ _ _ H X) as [[K V]|[K V]]; destruct (In1 _ _ _ _ H' X') as [[K' V']|[K' V']]; congruence.
Qed.

(** Both conditions are needed: a line without a time stamp that was sent once is held twice ... *)
Theorem C89_needs_dates : exists w st t t', plain_writer w /\ settled_ok w /\ carried_out (attempted (ww_trace w)) st /\
  flat_map lines_of (map snd (messages (ww_trace w))) = [u1; d2] /\ t <> t' /\
  db ex_points st (lit "cpu x " ++ FormatInt t) = Some (lit "1") /\ db ex_points st (lit "cpu x " ++ FormatInt t') = Some (lit "1").
Proof.
  exists (lost_answer u1 d2), [(2, u1); (6, d2); (15, u1)], 2, 15. destruct (lost_runs u1 d2 (or_intror (or_intror eq_refl))) as (P & S0 & A & M).
  split; [exact P|]. split; [exact S0|]. rewrite A, M. split; [repeat constructor|]. split; [reflexivity|]. split; [discriminate|]. split; reflexivity.
Qed.
Print Assumptions C89_needs_dates.

(** ... and when a line corrects an earlier one, InfluxDB can end up with the value that was corrected. *)
Theorem C89_needs_consistency : exists w st, plain_writer w /\ settled_ok w /\ carried_out (attempted (ww_trace w)) st /\
  flat_map lines_of (map snd (messages (ww_trace w))) = [d1; d3] /\ Forall (dated ex_points) [d1; d3] /\
  db ex_points st (lit "cpu x 100") = Some (lit "1").
Proof.
  exists (lost_answer d1 d3), [(2, d1); (6, d3); (15, d1)]. destruct (lost_runs d1 d3 (or_intror (or_introl eq_refl))) as (P & S0 & A & M).
  split; [exact P|]. split; [exact S0|]. rewrite A, M. split; [repeat constructor|]. split; [reflexivity|]. split; [|reflexivity].
  constructor; [|constructor; [|constructor]]; intros t t'; reflexivity.
Qed.
Print Assumptions C89_needs_consistency.
