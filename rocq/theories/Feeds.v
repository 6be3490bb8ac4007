(** The filter and the downsampler together with the NATS subscriptions that feed them: filter/filter.go:68-104,
    downsampler/downsampler.go:79-95.  The subscription is that of NatsSub.v, the filter's pool that of FilterWorker.v, the
    downsampler's worker that of Assigner.v. *)
From Coq Require Import Permutation.
From Verif Require Import Base LinesSpec Rules RulesSpec FilterWorker FilterSpec FilterProofs Assigner NatsSub.
Local Open Scope Z_scope.

(* ------------------------------------------------------------------ *)
(** * The filter *)

Section FilterFeed.
  Variable gosort : forall A : Type, (A -> A -> bool) -> list A -> list A.
  Variable c : fcfg.

  (** A message arrives (kept or dropped); the callback gets one; the callback's jobs <- msg.Data succeeds (86-88); the pool moves. *)
  Inductive glabel := GArrive (m : bytes) (keep : bool) | GPick | GPut (m : bytes) | GPool (l : flabel).

  Inductive gstep : sub * fsys -> glabel -> sub * fsys -> Prop :=
  | gs_arrive su fs m su' k : sub_arrive su m = (su', k) -> gstep (su, fs) (GArrive m k) (su', fs)
  | gs_pick su fs su' : sub_pick su = Some su' -> gstep (su, fs) GPick (su', fs)
  | gs_put su fs m su' fs' : sub_return su = Some (m, su') -> fstep gosort c fs (LReceive m) fs' -> gstep (su, fs) (GPut m) (su', fs')
  | gs_pool su fs l fs' : match l with LReceive _ => False | _ => True end -> fstep gosort c fs l fs' -> gstep (su, fs) (GPool l) (su, fs').

  Inductive gexec : sub * fsys -> list glabel -> sub * fsys -> Prop :=
  | ge_nil s : gexec s [] s
  | ge_step s l s' ls s'' : gexec s ls s' -> gstep s' l s'' -> gexec s (ls ++ [l]) s''.

  (** Reading a history. *)
  Definition g_arrived (ls : list glabel) : list bytes := flat_map (fun l => match l with GArrive m _ => [m] | _ => [] end) ls.
  Definition g_kept (ls : list glabel) : list bytes := flat_map (fun l => match l with GArrive m true => [m] | _ => [] end) ls.
  Definition g_dropped (ls : list glabel) : list bytes := flat_map (fun l => match l with GArrive m false => [m] | _ => [] end) ls.
  Definition g_taken (ls : list glabel) : list job := flat_map (fun l => match l with GPool (LTake _ j) => [j] | _ => [] end) ls.
  Definition g_performed (ls : list glabel) : list act := flat_map (fun l => match l with GPool (LAct _ a) => [a] | _ => [] end) ls.

  (** What the pool alone does in a history. *)
  Definition pool_part (ls : list glabel) : list flabel := flat_map (fun l => match l with GPut m => [LReceive m] | GPool l => [l] | _ => [] end) ls.

  Lemma feed_project limit n ls su fs : gexec (newSub limit, startFilter c n) ls (su, fs) ->
    fexec gosort c (startFilter c n) (pool_part ls) fs /\
    g_kept ls = received (pool_part ls) ++ backlog su /\
    g_taken ls = taken (pool_part ls) /\ g_performed ls = performed (pool_part ls) /\
    su_dropped su = Z.of_nat (length (g_dropped ls)) /\ su_limit su = limit /\
    (0 < limit -> Z.of_nat (length (concat (backlog su))) <= limit) /\
    Permutation (g_arrived ls) (g_kept ls ++ g_dropped ls).
  Proof.
    intros H. remember (newSub limit, startFilter c n) as s0 eqn:E0. remember (su, fs) as s1 eqn:E1. revert su fs E0 E1.
    induction H as [s|s l s' ls s'' H IH ST]; intros su fs E0 E1.
    - subst s. injection E1 as <- <-. cbn. repeat split; auto; try constructor. intros. lia.
    - subst s. destruct s' as [su1 fs1]. destruct (IH su1 fs1 eq_refl eq_refl) as (F & K & T & P & D & L & B & A). clear IH.
      unfold pool_part, g_kept, g_taken, g_performed, g_dropped, g_arrived in *. rewrite !flat_map_app.
      inversion ST as [su2 fs2 m su' k EA X1 X2 X3|su2 fs2 su' EA X1 X2 X3|su2 fs2 m su' fs' EA ES X1 X2 X3|su2 fs2 l0 fs' NL ES X1 X2 X3]; subst; injection X3 as -> ->.
      + pose proof (arrive_backlog _ _ _ _ EA) as (B1 & B2 & B3 & B4). rewrite pending_backlog in B4. rewrite B1, B2, B3, D.
        destruct k; cbn [flat_map app]; rewrite ?app_nil_r, ?app_length; cbn [length].
        * split; [exact F|]. split; [rewrite K, <- app_assoc; reflexivity|]. split; [exact T|]. split; [exact P|]. split; [lia|]. split; [reflexivity|]. split.
          -- intros L0. assert (~ (0 < su_limit su1 /\ su_limit su1 < Z.of_nat (length (concat (backlog su1))) + Z.of_nat (length m))) by (intros X; apply B4 in X; discriminate).
             rewrite concat_app, app_length. cbn [concat app]. rewrite app_nil_r. lia.
          -- rewrite A, <- !app_assoc. apply Permutation_app_head. apply Permutation_app_comm.
        * split; [exact F|]. split; [exact K|]. split; [exact T|]. split; [exact P|]. split; [lia|]. split; [reflexivity|]. split; [exact B|].
          rewrite A, app_assoc. reflexivity.
      + pose proof (pick_backlog _ _ EA) as (B1 & B2 & B3). rewrite B1, B2, B3. cbn [flat_map app]. rewrite ?app_nil_r. repeat split; auto.
      + pose proof (return_backlog _ _ _ EA) as (B1 & B2 & B3). rewrite B2, B3. cbn [flat_map app]. rewrite ?app_nil_r.
        split; [eapply fe_step; eauto|]. split; [rewrite K, B1; unfold received; rewrite flat_map_app; cbn [flat_map app]; rewrite <- app_assoc; reflexivity|].
        split; [rewrite T; unfold taken; rewrite flat_map_app; cbn [flat_map]; rewrite app_nil_r; reflexivity|].
        split; [rewrite P; unfold performed; rewrite flat_map_app; cbn [flat_map]; rewrite app_nil_r; reflexivity|].
        split; [exact D|]. split; [reflexivity|]. split; [|exact A].
        intros L0. specialize (B L0). rewrite B1 in B. cbn [concat] in B. rewrite app_length in B. lia.
      + cbn [flat_map app]. rewrite ?app_nil_r. split; [eapply fe_step; eauto|].
        split; [rewrite K; unfold received; rewrite flat_map_app; destruct l0; try destruct NL; cbn [flat_map app]; rewrite ?app_nil_r; reflexivity|].
        split; [rewrite T; unfold taken; rewrite flat_map_app; destruct l0; cbn [flat_map app]; rewrite ?app_nil_r; reflexivity|].
        split; [rewrite P; unfold performed; rewrite flat_map_app; destruct l0; cbn [flat_map app]; rewrite ?app_nil_r; reflexivity|].
        repeat split; auto.
  Qed.

  (** At every moment. *)
  Lemma filter_feed limit n ls su fs : gexec (newSub limit, startFilter c n) ls (su, fs) ->
    g_kept ls = map (fun j : job => snd j) (g_taken ls) ++ s_jobs fs ++ backlog su /\
    Permutation (g_arrived ls) (g_kept ls ++ g_dropped ls) /\
    su_dropped su = Z.of_nat (length (g_dropped ls)) /\
    (0 < limit -> Z.of_nat (length (concat (backlog su))) <= limit) /\
    Permutation (g_performed ls ++ flat_map todo_of (s_workers fs)) (flat_map (job_acts gosort c) (g_taken ls)).
  Proof.
    intros H. destruct (feed_project limit n ls su fs H) as (F & K & T & P & D & L & B & A).
    destruct (pool_moment gosort c n _ _ F) as (R & PM & _). rewrite R, <- app_assoc in K. rewrite T, P. auto 10.
  Qed.

  (** When everything has come to rest. *)
  Lemma filter_feed_done limit n ls su fs : sorts gosort -> gexec (newSub limit, startFilter c n) ls (su, fs) ->
    quiet fs -> backlog su = [] -> Forall (job_bounds c) (g_taken ls) ->
    map (fun j : job => snd j) (g_taken ls) = g_kept ls /\
    Permutation (published (g_performed ls))
      (flat_map (fun j : job => let '(oks, now, m) := j in published (snd (processBatch gosort c oks now (newFilterWorker c) m))) (g_taken ls)) /\
    counter FProcessed (g_performed ls) = length (flat_map lines_of (g_kept ls)).
  Proof.
    intros SO H Q BL JB. destruct (feed_project limit n ls su fs H) as (F & K & T & P & D & L & B & A).
    destruct (pool_quiet gosort c n _ _ F Q) as (R & PP & CT & _). rewrite BL, app_nil_r in K.
    rewrite T, P. split; [congruence|]. split; [exact PP|]. rewrite CT. rewrite K, R. rewrite T in JB. clear - SO JB.
    induction JB as [|[[oks now] m] js HJ _ IH]; [reflexivity|]. cbn [map list_sum fold_right flat_map]. rewrite app_length.
    change (fold_right Nat.add 0%nat) with list_sum. rewrite IH. f_equal.
    destruct (history gosort c [(oks, now, m)] SO ltac:(constructor; [exact HJ|constructor])) as (fss & _ & _ & X & _).
    cbn [run_worker] in X. destruct (processBatch gosort c oks now (newFilterWorker c) m) as [st a]. cbn [snd] in *.
    cbn [flat_map snd] in X. rewrite !app_nil_r in X. exact X.
  Qed.
End FilterFeed.

(* ------------------------------------------------------------------ *)
(** * The downsampler *)

Section DownsamplerFeed.
  Variables (B E : Type) (newBucket : Z -> B) (addLine : B -> bytes -> B * list E) (fail : nat -> bool).

  (** downsampler/downsampler.go:81 make(chan []byte, 1024): the subscription of one subject, its channel, its worker. *)
  Record dfeed := mkDF { df_sub : sub; df_chan : list bytes; df_worker : dstate B }.
  Definition dchan_cap : nat := 1024.

  (** One subject's part of StartDownsampler (81-95). *)
  Definition startFeed (limit period now : Z) : dfeed := mkDF (newSub limit) [] (newWorker B newBucket period now).

  Inductive dlabel := DArrive (m : bytes) | DPick | DPut | DTurn (t : turn B).

  (** The last component tells whether an arriving message was kept. *)
  Definition dstep (s : dfeed) (l : dlabel) : option (dfeed * bool) :=
    match l with
    | DArrive m => let (su, k) := sub_arrive (df_sub s) m in Some (mkDF su (df_chan s) (df_worker s), k)
    | DPick => match sub_pick (df_sub s) with None => None | Some su => Some (mkDF su (df_chan s) (df_worker s), true) end
    | DPut =>
        match sub_return (df_sub s) with
        | None => None
        | Some (m, su) => if Nat.ltb (length (df_chan s)) dchan_cap then Some (mkDF su (df_chan s ++ [m]) (df_worker s), true) else None
        end
    | DTurn t =>
        match t_in B t with
        | None => Some (mkDF (df_sub s) (df_chan s) (worker_turn B E newBucket addLine fail (df_worker s) t), true)
        | Some (data, _) =>
            match df_chan s with
            | m :: r => if beqs m data then Some (mkDF (df_sub s) r (worker_turn B E newBucket addLine fail (df_worker s) t), true) else None
            | [] => None
            end
        end
    end.

  (** A run: the labels with whether arrivals were kept. *)
  Fixpoint drun (s : dfeed) (ls : list dlabel) : option (dfeed * list (dlabel * bool)) :=
    match ls with
    | [] => Some (s, [])
    | l :: ls' =>
        match dstep s l with
        | None => None
        | Some (s1, k) => match drun s1 ls' with None => None | Some (s2, tr) => Some (s2, (l, k) :: tr) end
        end
    end.

  Definition d_kept (tr : list (dlabel * bool)) : list bytes := flat_map (fun l => match l with (DArrive m, true) => [m] | _ => [] end) tr.
  Definition d_dropped (tr : list (dlabel * bool)) : list bytes := flat_map (fun l => match l with (DArrive m, false) => [m] | _ => [] end) tr.
  Definition d_arrived (tr : list (dlabel * bool)) : list bytes := flat_map (fun l => match l with (DArrive m, _) => [m] | _ => [] end) tr.
  Definition d_turns (tr : list (dlabel * bool)) : list (turn B) := flat_map (fun l => match l with (DTurn t, _) => [t] | _ => [] end) tr.
  (** The messages a sequence of turns receives. *)
  Definition turn_inputs (ts : list (turn B)) : list bytes := flat_map (fun t => match t_in B t with Some (data, _) => [data] | None => [] end) ts.

  Lemma dfeed_from s ls s' tr : drun s ls = Some (s', tr) ->
    df_worker s' = worker_run B E newBucket addLine fail (df_worker s) (d_turns tr) /\
    df_chan s ++ backlog (df_sub s) ++ d_kept tr = turn_inputs (d_turns tr) ++ df_chan s' ++ backlog (df_sub s') /\
    su_dropped (df_sub s') = su_dropped (df_sub s) + Z.of_nat (length (d_dropped tr)) /\ su_limit (df_sub s') = su_limit (df_sub s) /\
    (length (df_chan s) <= 1024 -> length (df_chan s') <= 1024)%nat /\
    (0 < su_limit (df_sub s) -> pending_bytes (df_sub s) <= su_limit (df_sub s) -> pending_bytes (df_sub s') <= su_limit (df_sub s')) /\
    Permutation (d_arrived tr) (d_kept tr ++ d_dropped tr).
  Proof.
    revert s tr. induction ls as [|l ls IH]; intros s tr H.
    - cbn [drun] in H. injection H as <- <-. cbn. rewrite !app_nil_r, Z.add_0_r. repeat split; auto.
    - cbn [drun] in H. destruct (dstep s l) as [[s1 k]|] eqn:ES; [|discriminate]. destruct (drun s1 ls) as [[s2 tr2]|] eqn:ER; [|discriminate].
      injection H as <- <-. destruct (IH s1 tr2 ER) as (W & Q & D & L & C1 & P & A). clear IH.
      unfold worker_run in *. destruct l as [m| | |t]; cbn [dstep] in ES.
      + destruct (sub_arrive (df_sub s) m) as [su k0] eqn:EA. injection ES as <- <-. cbn [df_sub df_chan df_worker] in *.
        pose proof (arrive_backlog _ _ _ _ EA) as (B1 & B2 & B3 & B4).
        unfold d_turns, d_kept, d_dropped, d_arrived in *. cbn [flat_map app]. rewrite B1 in Q. rewrite B2, B3 in *.
        destruct k0; cbn [app] in *; rewrite ?app_nil_r in *.
        * split; [exact W|]. split; [rewrite <- app_assoc in Q; exact Q|]. split; [lia|]. split; [exact L|]. split; [exact C1|]. split.
          -- intros L0 P0. apply P; [exact L0|]. assert (~ (0 < su_limit (df_sub s) /\ su_limit (df_sub s) < pending_bytes (df_sub s) + Z.of_nat (length m))) by (intros X; apply B4 in X; discriminate).
             rewrite !pending_backlog in *. rewrite B1, concat_app, app_length. cbn [concat app]. rewrite app_nil_r. lia.
          -- constructor. exact A.
        * split; [exact W|]. split; [exact Q|]. cbn [length]. split; [lia|]. split; [exact L|]. split; [exact C1|]. split.
          -- intros L0 P0. apply P; [exact L0|]. rewrite !pending_backlog in *. rewrite B1. exact P0.
          -- rewrite A. apply Permutation_middle.
      + destruct (sub_pick (df_sub s)) as [su|] eqn:EA; [|discriminate]. injection ES as <- <-. cbn [df_sub df_chan df_worker] in *.
        pose proof (pick_backlog _ _ EA) as (B1 & B2 & B3). rewrite !pending_backlog in *. rewrite B1, B2, B3 in *. auto 10.
      + destruct (sub_return (df_sub s)) as [[m su]|] eqn:EA; [|discriminate].
        destruct (Nat.ltb_spec (length (df_chan s)) dchan_cap) as [HC|]; [|discriminate]. injection ES as <- <-. unfold dchan_cap in HC. cbn [df_sub df_chan df_worker] in *.
        pose proof (return_backlog _ _ _ EA) as (B1 & B2 & B3). rewrite B2, B3 in *. unfold d_turns, d_kept, d_dropped, d_arrived in *. cbn [flat_map app].
        split; [exact W|]. split; [rewrite B1; rewrite <- app_assoc in Q; exact Q|]. split; [exact D|]. split; [exact L|]. split.
        { intros _. apply C1. rewrite app_length. cbn [length]. lia. }
        split; [|exact A]. intros L0 P0. apply P; [exact L0|]. rewrite !pending_backlog in *. rewrite B1 in P0. cbn [concat] in P0. rewrite app_length in P0. lia.
      + destruct (t_in B t) as [[data clk]|] eqn:ET.
        * destruct (df_chan s) as [|m r] eqn:EC; [discriminate|]. destruct (beqs m data) eqn:EB; [|discriminate]. apply beqs_eq in EB. subst m.
          injection ES as <- <-. cbn [df_sub df_chan df_worker] in *. unfold d_turns, d_kept, d_dropped, d_arrived, turn_inputs in *. cbn [flat_map app fold_left]. rewrite ET.
          split; [exact W|]. split; [cbn [app]; f_equal; exact Q|]. split; [exact D|]. split; [exact L|]. split; [cbn [length]; intros; apply C1; lia|]. auto.
        * injection ES as <- <-. cbn [df_sub df_chan df_worker] in *. unfold d_turns, d_kept, d_dropped, d_arrived, turn_inputs in *. cbn [flat_map app fold_left]. rewrite ET. auto 10.
  Qed.

  Lemma downsampler_feed limit period now ls s tr : drun (startFeed limit period now) ls = Some (s, tr) ->
    df_worker s = worker_run B E newBucket addLine fail (newWorker B newBucket period now) (d_turns tr) /\
    d_kept tr = turn_inputs (d_turns tr) ++ df_chan s ++ backlog (df_sub s) /\
    Permutation (d_arrived tr) (d_kept tr ++ d_dropped tr) /\
    su_dropped (df_sub s) = Z.of_nat (length (d_dropped tr)) /\
    (0 < limit -> Z.of_nat (length (concat (backlog (df_sub s)))) <= limit) /\ (length (df_chan s) <= 1024)%nat.
  Proof.
    intros H. destruct (dfeed_from _ _ _ _ H) as (W & Q & D & L & C1 & P & A).
    cbn [startFeed df_sub df_chan df_worker newSub backlog su_hand su_waiting app su_dropped su_limit length] in *.
    split; [exact W|]. split; [exact Q|]. split; [exact A|]. split; [lia|]. split; [|apply C1; lia].
    intros L0. rewrite <- pending_backlog. rewrite L in P. apply P; [exact L0|]. cbn. lia.
  Qed.
End DownsamplerFeed.
