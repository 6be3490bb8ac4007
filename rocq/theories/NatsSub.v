(** Model of a NATS client subscription with a callback (github.com/nats-io/nats.go v1.10.0, from knowledge of the
    library) as the components configure it: SetPendingLimits(-1, bytes), i.e. no limit on the number of waiting
    messages and [su_limit] on their bytes (filter/filter.go:90-103, writer/writer.go:91-110, downsampler/downsampler.go:76-94). *)
From Verif Require Import Base.
Local Open Scope Z_scope.

(** The messages waiting in the client, the message whose callback is running, the messages dropped so far
    (what sub.Dropped() counts: filter/filter.go:198, writer/writer.go:264, downsampler/downsampler.go:218), and the limit. *)
Record sub := mkSub { su_waiting : list bytes; su_hand : option bytes; su_dropped : Z; su_limit : Z }.

(** A new subscription. *)
Definition newSub (limit : Z) : sub := mkSub [] None 0 limit.

(** sub.pBytes: the bytes of the waiting messages and of the one whose callback has not returned (the client
    takes a message off its account after the callback, nats.go waitForMsgs). *)
Definition pending_bytes (s : sub) : Z :=
  Z.of_nat (length (concat (su_waiting s))) + match su_hand s with Some m => Z.of_nat (length m) | None => 0 end.

(** nats.go processMsg: a message arrives from the server; dropped and counted if it would exceed the limit.  The
    second component tells whether it was kept. *)
Definition sub_arrive (s : sub) (m : bytes) : sub * bool :=
  if (0 <? su_limit s) && (su_limit s <? pending_bytes s + Z.of_nat (length m))
  then (mkSub (su_waiting s) (su_hand s) (su_dropped s + 1) (su_limit s), false)
  else (mkSub (su_waiting s ++ [m]) (su_hand s) (su_dropped s) (su_limit s), true).

(** nats.go waitForMsgs: the next message is given to the callback; one callback at a time per subscription. *)
Definition sub_pick (s : sub) : option sub :=
  match su_hand s, su_waiting s with
  | None, m :: r => Some (mkSub r (Some m) (su_dropped s) (su_limit s))
  | _, _ => None
  end.

(** The callback returns; its message. *)
Definition sub_return (s : sub) : option (bytes * sub) :=
  match su_hand s with
  | Some m => Some (m, mkSub (su_waiting s) None (su_dropped s) (su_limit s))
  | None => None
  end.

(** Everything kept and not yet handed over, oldest first. *)
Definition backlog (s : sub) : list bytes := match su_hand s with Some m => [m] | None => [] end ++ su_waiting s.

Lemma pending_backlog s : pending_bytes s = Z.of_nat (length (concat (backlog s))).
Proof. unfold pending_bytes, backlog. destruct (su_hand s); simpl; rewrite ?app_length; lia. Qed.

Lemma pick_backlog s s' : sub_pick s = Some s' -> backlog s' = backlog s /\ su_dropped s' = su_dropped s /\ su_limit s' = su_limit s.
Proof.
  unfold sub_pick, backlog. destruct (su_hand s); [discriminate|]. destruct (su_waiting s); [discriminate|].
  intros E. injection E as <-. simpl. auto.
Qed.

Lemma return_backlog s m s' : sub_return s = Some (m, s') ->
  backlog s = m :: backlog s' /\ su_dropped s' = su_dropped s /\ su_limit s' = su_limit s.
Proof. unfold sub_return, backlog. destruct (su_hand s); [|discriminate]. intros E. injection E as <- <-. simpl. auto. Qed.

Lemma arrive_backlog s m s' k : sub_arrive s m = (s', k) ->
  backlog s' = backlog s ++ (if k then [m] else []) /\ su_dropped s' = su_dropped s + (if k then 0 else 1) /\
  su_limit s' = su_limit s /\
  (k = false <-> 0 < su_limit s /\ su_limit s < pending_bytes s + Z.of_nat (length m)).
Proof.
  unfold sub_arrive, backlog.
  destruct (Z.ltb_spec 0 (su_limit s)); destruct (Z.ltb_spec (su_limit s) (pending_bytes s + Z.of_nat (length m)));
    cbn [andb]; intros E; injection E as <- <-; cbn [su_hand su_waiting su_dropped su_limit];
    rewrite ?app_assoc, ?app_nil_r, ?Z.add_0_r; repeat split; auto; intros; try discriminate; try lia.
Qed.
