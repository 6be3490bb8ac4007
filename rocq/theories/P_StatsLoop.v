(** C114: stats_interval.  README.md:173-175 and the other sections: the component will publish its internal metrics to the
    monitor component at this interval.

    [srun f iv (sstart t0 v0) ls = Some (s, o)]: from [t0] on, with stats_interval [iv], a component and its statistics goroutine
    did [ls], and published [o]; [s_value s] is the counter.  [f]: a listener; otherwise filter, downsampler or writer. *)
From Verif Require Import Base StatsLoop StatsLoopProofs.
Local Open Scope Z_scope.

(** While a component runs, whatever it has counted by any moment ([s1]) is in a report at most an interval later, and the
    time two reports take; so if some reports are lost, it is in the next. *)
Theorem C114_fresh_partial f iv R W t0 v0 l1 l2 s1 o1 s2 o2 : 0 <= R -> 0 <= W -> timely f iv R W (sstart t0 v0) (l1 ++ l2) ->
  srun f iv (sstart t0 v0) l1 = Some (s1, o1) -> srun f iv s1 l2 = Some (s2, o2) -> (forall t, ~ In (Stop t) (l1 ++ l2)) ->
  s_time s1 + Z.max 0 iv + W + 2 * R < s_time s2 ->
  exists t stamp v ok, In (Report t stamp v ok) o2 /\ s_value s1 <= v /\ t <= s_time s1 + Z.max 0 iv + W + 2 * R.
Proof. exact (fresh' f iv R W t0 v0 l1 l2 s1 o1 s2 o2). Qed.
Print Assumptions C114_fresh_partial.

(** A report says what the counter was at some moment ([s1]): for a listener not after the report's timestamp, for the
    other components not before it; and not after the report was published. *)
Theorem C114_true f iv t0 v0 ls s o : srun f iv (sstart t0 v0) ls = Some (s, o) -> forall t stamp v ok, In (Report t stamp v ok) o ->
  exists l1 l2 s1 o1 now, ls = l1 ++ l2 /\ srun f iv (sstart t0 v0) l1 = Some (s1, o1) /\ s_value s1 = v /\ stamp = now ÷ 1000000 /\
    (if f then s_time s1 <= now <= t else now <= s_time s1 <= t).
Proof. exact (fun H t stamp v ok J => proj1 (Forall_forall _ _) (truthful f iv t0 v0 ls s o H) _ J). Qed.
Print Assumptions C114_true.

(** A later report never says less. *)
Theorem C114_cumulative f iv t0 v0 ls s o : srun f iv (sstart t0 v0) ls = Some (s, o) ->
  forall a r b, o = a ++ r :: b -> forall r', In r' b -> value_of r <= value_of r'.
Proof. exact (later f iv t0 v0 ls s o). Qed.
Print Assumptions C114_cumulative.

(** Stop does not wait for the interval: wherever the goroutine is, it is through in five steps of its own, none of which
    is the end of the interval. *)
Theorem C114_stops f iv s t : s_stop s = true -> s_time s <= t -> exists ls s' o, (length ls <= 5)%nat /\
  Forall (fun l => at_time l = t) ls /\ srun f iv s ls = Some (s', o) /\ s_pc s' = Done.
Proof. exact (stops f iv s t). Qed.
Print Assumptions C114_stops.

(** But there is no last report: whatever was counted after the last reading is never reported.  Exactly that is missing. *)
Theorem C114_lost f iv t0 v0 ls s o : srun f iv (sstart t0 v0) ls = Some (s, o) -> s_pc s = Done ->
  s_value s - last (map value_of o) v0 = unread 0 ls.
Proof. exact (lost f iv t0 v0 ls s o). Qed.
Print Assumptions C114_lost.
(** A component which counts, and stops, within the first interval only ever reports zero; whatever the interval. *)
Theorem C114_last_refuted f iv : exists s, srun f iv (sstart 0 0) (short_life f) = Some (s, [Report 0 0 0 true]) /\ s_pc s = Done /\ s_value s = 7.
Proof. exact (never_reported f iv). Qed.
Print Assumptions C114_last_refuted.

(** ** Cases *)
Definition sec : Z := 1000000000.
(** A filter with the default interval: 5 counted at 1 s, 2 while the second report is on its way; the third has all. *)
Definition life1 : list slabel := [Now 10; Snap 20; Publish 30 true; Enter 40; Count (1 * sec) 5; Timer (3 * sec + 50); Now (3 * sec + 60); Snap (3 * sec + 70); Count (3 * sec + 75) 2;
  Publish (3 * sec + 80) false; Enter (3 * sec + 90)].
Definition life2 : list slabel := [Timer (6 * sec + 95); Now (6 * sec + 96); Snap (6 * sec + 97); Publish (6 * sec + 98) true; Enter (6 * sec + 99); Count (7 * sec) 1].
Example two_lives : exists s1 s2, srun false (3 * sec) (sstart 0 0) life1 = Some (s1, [Report 30 0 0 true; Report (3 * sec + 80) 3000 5 false]) /\
  srun false (3 * sec) s1 life2 = Some (s2, [Report (6 * sec + 98) 6000 7 true]) /\ s_value s1 = 7 /\ s_value s2 = 8 /\ s_stop s2 = false /\
  s_time s1 + Z.max 0 (3 * sec) + 100 + 2 * 100 < s_time s2.
Proof. do 2 eexists. split; [vm_compute; reflexivity|]. split; [vm_compute; reflexivity|]. split; [reflexivity|]. split; [reflexivity|]. split; [reflexivity|]. vm_compute. reflexivity. Qed.
Example two_lives_timely : timely false (3 * sec) 100 100 (sstart 0 0) (life1 ++ life2).
Proof. vm_compute. repeat split; intros X; discriminate X. Qed.
Example two_lives_no_stop : forall t, ~ In (Stop t) (life1 ++ life2).
Proof. intros t J. repeat (destruct J as [J|J]; [discriminate J|]). destruct J. Qed.
(** A listener reads its counters first: the timestamp may be that of a moment when more had been counted. *)
Example listener_reads_first : exists s, srun true sec (sstart 0 0) [Snap 1000000; Count 2000000 4; Now 5000000; Publish 5000000 true] = Some (s, [Report 5000000 5 0 true]).
Proof. eexists. vm_compute. reflexivity. Qed.
Example filter_reads_second : exists s, srun false sec (sstart 0 0) [Now 1000000; Count 2000000 4; Snap 5000000; Publish 5000000 true] = Some (s, [Report 5000000 1 4 true]).
Proof. eexists. vm_compute. reflexivity. Qed.
