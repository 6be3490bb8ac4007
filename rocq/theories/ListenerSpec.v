(** Reference behaviour of the UDP listener in terms of datagrams and groups of datagrams. *)
From Verif Require Import Base BatchSpec Batch Timestamps LinesSpec Listener.
Local Open Scope Z_scope.

(** The datagrams that arrived, newline terminated ([with_nl]); empty reads are nothing. *)
Definition arrived (us : list udp_in) : list bytes :=
  map with_nl (filter (fun d => negb (beqs d [])) (map u_data us)).

Definition total (ds : list bytes) : Z := Z.of_nat (length (concat ds)).

(** Groups already sent, the pending group and the arrival time of its first datagram. *)
Record spst := mkSp { sp_groups : list (list bytes); sp_pend : list bytes; sp_first : Z }.

(** The configured limits for a pending group at time t. *)
Definition limit_reached (c : lconf) (pend : list bytes) (first t : Z) : Prop :=
  lc_max_count c <= Z.of_nat (length pend) \/ lc_max_age c <= t - first \/ lc_max_size c - total pend <= 65536.

Definition limit_reachedb (c : lconf) (pend : list bytes) (first t : Z) : bool :=
  (lc_max_count c <=? Z.of_nat (length pend)) || (lc_max_age c <=? t - first) || (lc_max_size c - total pend <=? 65536).

(** One read: the datagram joins the pending group; a non-empty group that reached a limit
    is sent as a whole. *)
Definition sp_step (c : lconf) (s : spst) (u : udp_in) : spst :=
  let first := match sp_pend s with [] => u_t1 u | _ => sp_first s end in
  let pend := sp_pend s ++ arrived [u] in
  match pend with
  | [] => mkSp (sp_groups s) [] (sp_first s)
  | _ => if limit_reachedb c pend first (u_t2 u) then mkSp (sp_groups s ++ [pend]) [] first
         else mkSp (sp_groups s) pend first
  end.
Definition sp_run (c : lconf) (us : list udp_in) : spst := fold_left (sp_step c) us (mkSp [] [] 0).

(** Number of failed publishes among the first n. *)
Definition fails (pf : nat -> bool) (n : nat) : Z := Z.of_nat (length (filter pf (seq 0 n))).

(** Read errors that count: neither timeouts nor end-of-file. *)
Definition read_errs (us : list udp_in) : Z :=
  Z.of_nat (length (filter (fun u => match u_err u with EOther => true | _ => false end) us)).

(** * HTTP *)

(** The units a request is supposed to contribute: its whole body when the precision is
    nanoseconds, otherwise its lines (blank ones dropped) with converted timestamps. *)
Definition expected (q : hreq) : list bytes :=
  if beqs (q_precision q) [] || beqs (q_precision q) (lit "ns")
  then match q_body q with [] => [] | b => [b] end
  else map (fun l => applyTimestampPrecision l (q_precision q))
           (filter (fun l => negb (Nat.leb (length l) 1)) (lines_of (q_body q))).

(** The entries of request [i] in a log of (request, bytes) pairs. *)
Definition entries (i : nat) (log : list (nat * bytes)) : list bytes :=
  map snd (filter (fun e => Nat.eqb (fst e) i) log).

(** Times of a history that do not go backwards. *)
Fixpoint monotone (t : Z) (labs : list (hlabel * Z)) : Prop :=
  match labs with [] => True | (_, t') :: labs' => t <= t' /\ monotone t' labs' end.

(** A history in which the age sender's timer is never more than [slack] overdue. *)
Fixpoint punctual (pf : nat -> bool) (c : lconf) (slack : Z) (h : hstate) (labs : list (hlabel * Z)) : Prop :=
  match labs with
  | [] => True
  | lab :: labs' => snd lab <= h_wake h + slack /\ punctual pf c slack (hstep pf c h lab) labs'
  end.
