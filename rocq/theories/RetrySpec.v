(** What one can say about a trace of the retry worker, without knowing its queue. *)
From Verif Require Import Base Retry.
Local Open Scope Z_scope.

Section Spec.
  Context {A : Type}.
  Implicit Types l : list (robs A).

  (** Batches handed in, and what became of them. *)
  Definition added l : list A := flat_map (fun o => match o with OAdd _ a => [a] | _ => [] end) l.
  Definition evicted l : list A := flat_map (fun o => match o with OEvict a => [a] | _ => [] end) l.
  Definition expired l : list A := flat_map (fun o => match o with OExpire _ a => [a] | _ => [] end) l.
  Definition delivered l : list A := flat_map (fun o => match o with OEnd _ a WOk => [a] | _ => [] end) l.
  Definition rejected l : list A := flat_map (fun o => match o with OEnd _ a WPerm => [a] | _ => [] end) l.
  (** Batches that will not be sent any more. *)
  Definition gone l : list A := delivered l ++ rejected l ++ expired l ++ evicted l.
  Definition attempts l : list (Z * A) := flat_map (fun o => match o with OStart t a => [(t, a)] | _ => [] end) l.

  (** Still waiting after the trace [l]. *)
  Definition waiting l (a : A) : Prop := In a (added l) /\ ~ In a (gone l).

  (** The event is an attempt to send [b], or its expiry or eviction. *)
  Definition concerns (b : A) (o : robs A) : Prop :=
    (exists t, o = OStart t b) \/ (exists t, o = OExpire t b) \/ o = OEvict b.

  (** A trace keeps the interval and the time to live: every attempt starts at most [ttl] after its batch
      was handed in, ends before anything else happens, and no later attempt starts within [interval]
      of that end; nothing expires within [ttl]. *)
  Definition well_timed (ttl interval : Z) l : Prop :=
    (forall l1 t a l2, l = l1 ++ OStart t a :: l2 ->
       (exists t0, In (OAdd t0 a) l1 /\ t0 <= t <= t0 + ttl) /\
       (l2 = [] \/ exists te o l3, l2 = OEnd te a o :: l3 /\ t <= te /\
                   forall t2 b, In (OStart t2 b) l3 -> te + interval <= t2)) /\
    (forall t a, In (OExpire t a) l -> exists t0, In (OAdd t0 a) l /\ t0 + ttl < t).

  (** Batches that are gone are never attempted again. *)
  Definition final l : Prop := forall l1 t a l2, l = l1 ++ OStart t a :: l2 -> ~ In a (gone l1).

  (** Every eviction happens when [max] batches are waiting and hits one that was handed in first. *)
  Definition evicts_oldest (max : Z) l : Prop := forall l1 a l2, l = l1 ++ OEvict a :: l2 ->
    exists ws, Z.of_nat (length ws) = max /\ NoDup ws /\ (forall b, In b ws <-> waiting l1 b) /\ In a ws /\
      forall b ta tb, In b ws -> In (OAdd ta a) l1 -> In (OAdd tb b) l1 -> ta <= tb.

  (** Between two attempts of one batch every other waiting batch had its turn. *)
  Definition fair_turns l : Prop := forall l1 t1 a l2 t2 l3 b,
    l = l1 ++ OStart t1 a :: l2 ++ OStart t2 a :: l3 -> a <> b -> waiting l1 b ->
    exists o, In o l2 /\ concerns b o.
End Spec.
