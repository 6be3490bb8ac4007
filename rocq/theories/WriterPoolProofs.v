(** What one can say about a run of the whole writer, and the proofs. *)
From Coq Require Import Permutation.
From Verif Require Import Base LinesSpec Rules Retry RetrySpec Writer WriterSpec WriterProofs WriterTop NatsSub WriterPool.
Local Open Scope Z_scope.

(* ------------------------------------------------------------------ *)
(** * Reading a trace *)

(** The messages the server delivered to subscription [i], and those of them the client kept. *)
Definition arrived_at (i : nat) (tr : list pobs) : list bytes :=
  flat_map (fun o => match o with BArrive j m _ => if Nat.eqb i j then [m] else [] | _ => [] end) tr.
Definition kept_at (i : nat) (tr : list pobs) : list bytes :=
  flat_map (fun o => match o with BArrive j m true => if Nat.eqb i j then [m] else [] | _ => [] end) tr.
Definition dropped_at (i : nat) (tr : list pobs) : list bytes :=
  flat_map (fun o => match o with BArrive j m false => if Nat.eqb i j then [m] else [] | _ => [] end) tr.
(** The messages of all subscriptions the client kept. *)
Definition kept_all (tr : list pobs) : list bytes := flat_map (fun o => match o with BArrive _ m true => [m] | _ => [] end) tr.
Definition puts_of (i : nat) (tr : list pobs) : list bytes :=
  flat_map (fun o => match o with BPut j m => if Nat.eqb i j then [m] else [] | _ => [] end) tr.
Definition puts (tr : list pobs) : list bytes := flat_map (fun o => match o with BPut _ m => [m] | _ => [] end) tr.
(** The messages taken by the workers, and by worker [w]. *)
Definition takes (tr : list pobs) : list bytes := flat_map (fun o => match o with BTake _ m => [m] | _ => [] end) tr.
Definition takes_of (w : nat) (tr : list pobs) : list bytes :=
  flat_map (fun o => match o with BTake v m => if Nat.eqb w v then [m] else [] | _ => [] end) tr.
(** What worker [w] and its retry goroutine did. *)
Definition wtrace (w : nat) (tr : list pobs) : list wobs :=
  flat_map (fun o => match o with BW v os => if Nat.eqb w v then os else [] | _ => [] end) tr.

(* ------------------------------------------------------------------ *)
(** * Lists *)

Lemma upd_length {A} (l : list A) i x : length (upd l i x) = length l.
Proof. revert i. induction l as [|y l IH]; intros [|i]; simpl; auto. Qed.
Lemma upd_same {A} (l : list A) i x y : nth_error l i = Some y -> nth_error (upd l i x) i = Some x.
Proof. revert i. induction l as [|z l IH]; intros [|i] E; simpl in *; try discriminate; auto. Qed.
Lemma upd_other {A} (l : list A) i j x : i <> j -> nth_error (upd l i x) j = nth_error l j.
Proof. revert i j. induction l as [|z l IH]; intros [|i] [|j] E; simpl; auto; try congruence. Qed.

Lemma prun_app c s ls1 ls2 : prun c s (ls1 ++ ls2) =
  match prun c s ls1 with
  | None => None
  | Some (s1, o1) => match prun c s1 ls2 with None => None | Some (s2, o2) => Some (s2, o1 ++ o2) end
  end.
Proof.
  revert s. induction ls1 as [|l ls1 IH]; intros s; simpl.
  - destruct (prun c s ls2) as [[s2 o2]|]; reflexivity.
  - destruct (pstep c s l) as [[s1 o1]|]; [|reflexivity]. rewrite IH.
    destruct (prun c s1 ls1) as [[s2 o2]|]; [|reflexivity].
    destruct (prun c s2 ls2) as [[s3 o3]|]; [|reflexivity]. rewrite app_assoc. reflexivity.
Qed.

(** Induction over runs by their last step. *)
Lemma prun_ind c s0 (P : wpool -> list pobs -> Prop) : P s0 [] ->
  (forall s tr l s' o, P s tr -> pstep c s l = Some (s', o) -> P s' (tr ++ o)) ->
  forall ls s tr, prun c s0 ls = Some (s, tr) -> P s tr.
Proof.
  intros H0 HS ls. induction ls as [|l ls IH] using rev_ind; intros s tr E.
  - simpl in E. injection E as <- <-. exact H0.
  - rewrite prun_app in E. destruct (prun c s0 ls) as [[s1 o1]|]; [|discriminate]. simpl in E.
    destruct (pstep c s1 l) as [[s2 o2]|] eqn:E2; [|discriminate]. injection E as <- <-.
    rewrite app_nil_r. eapply HS; eauto.
Qed.

Lemma wrun_snoc c s ls l s1 o1 s2 o2 : wrun c s ls = Some (s1, o1) -> wstep c s1 l = Some (s2, o2) ->
  wrun c s (ls ++ [l]) = Some (s2, o1 ++ o2).
Proof.
  revert s o1. induction ls as [|x ls IH]; intros s o1 E E2; simpl in *.
  - injection E as <- <-. rewrite E2. rewrite app_nil_r. reflexivity.
  - destruct (wstep c s x) as [[s3 o3]|]; [|discriminate].
    destruct (wrun c s3 ls) as [[s4 o4]|] eqn:E4; [|discriminate]. injection E as -> <-.
    rewrite (IH _ _ E4 E2). rewrite app_assoc. reflexivity.
Qed.

(* ------------------------------------------------------------------ *)
(** * The invariant *)

Record pinv (c : wcfg) (limits : list Z) (n : nat) (cap now : Z) (s : wpool) (tr : list pobs) : Prop := mkPInv {
  pi_subs : forall i su, nth_error (p_subs s) i = Some su ->
    kept_at i tr = puts_of i tr ++ backlog su /\ su_dropped su = Z.of_nat (length (dropped_at i tr)) /\
    nth_error limits i = Some (su_limit su) /\ (0 < su_limit su -> pending_bytes su <= su_limit su);
  pi_nsubs : length (p_subs s) = length limits;
  pi_jobs : puts tr = takes tr ++ p_jobs s;
  pi_cap : (length (p_jobs s) <= 1024)%nat;
  pi_all : Permutation (kept_all tr) (puts tr ++ flat_map backlog (p_subs s));
  pi_takes : Permutation (takes tr) (flat_map (fun w => takes_of w tr) (seq 0 (length (p_ws s))));
  pi_ws : length (p_ws s) = n;
  pi_w : forall w st, nth_error (p_ws s) w = Some st ->
    (exists ls, wrun c (newWorker cap now) ls = Some (st, wtrace w tr)) /\ map snd (messages (wtrace w tr)) = takes_of w tr }.

Lemma flat_map_upd {A B} (f : A -> list B) (l : list A) i x y : nth_error l i = Some y ->
  exists l1 l2, flat_map f l = l1 ++ f y ++ l2 /\ flat_map f (upd l i x) = l1 ++ f x ++ l2.
Proof.
  revert i. induction l as [|z l IH]; intros [|i] E; simpl in E; try discriminate.
  - injection E as ->. exists [], (flat_map f l). simpl. auto.
  - destruct (IH i E) as (l1 & l2 & E1 & E2). exists (f z ++ l1), l2. simpl. rewrite E1, E2, !app_assoc. auto.
Qed.

Lemma check_messages c s t s' o : check c s t = (s', o) -> messages o = [].
Proof. unfold check. destruct (shouldSend _ _ _); intros E; injection E as <- <-; reflexivity. Qed.

Lemma messages_step c s l s' o : wstep c s l = Some (s', o) ->
  map snd (messages o) = match l with PMsg _ _ d => [d] | _ => [] end.
Proof.
  intros H. destruct l; unfold wstep in H; destruct (w_pc s) as [|rest|a rest| |] eqn:P; try discriminate H;
  try (injection H as <- <-; reflexivity).
  - destruct (check c _ t') as [s1 o1] eqn:E. apply check_messages in E. injection H as <- <-.
    change (messages (VMsg t data :: o1)) with ((t, data) :: messages o1). rewrite E. reflexivity.
  - destruct (0 <? r_writes (w_retry s)); [|discriminate]. destruct (check c _ t') as [s1 o1] eqn:E. apply check_messages in E.
    injection H as <- <-. change (messages (VTookWrite :: o1)) with (messages o1). rewrite E. reflexivity.
  - destruct (0 <? r_errs (w_retry s)); [|discriminate]. destruct (check c _ t') as [s1 o1] eqn:E. apply check_messages in E.
    injection H as <- <-. change (messages (VTookErr :: o1)) with (messages o1). rewrite E. reflexivity.
  - injection H as H. apply check_messages in H. rewrite H. reflexivity.
  - destruct rest as [|ch rest]; [discriminate|]. destruct (_ || _); injection H as <- <-; reflexivity.
  - destruct (w_chan s); [discriminate|]. injection H as <- <-. reflexivity.
  - destruct (w_closed s); [|discriminate]. injection H as <- <-. reflexivity.
  - destruct (r_ph (w_retry s)); try discriminate. injection H as <- <-. reflexivity.
  - destruct (0 <? wc_retry c); [|discriminate]. destruct (w_chan s); [|discriminate]. destruct (retry_step c _ _) as [[r o1]|]; [|discriminate].
    injection H as <- <-. rewrite vretry_msgs. reflexivity.
  - destruct (0 <? wc_retry c); [|discriminate]. destruct (w_chan s); [|discriminate]. destruct (retry_step c _ _) as [[r o1]|]; [|discriminate].
    injection H as <- <-. rewrite vretry_msgs. reflexivity.
  - destruct (0 <? wc_retry c); [|discriminate]. destruct (w_chan s); [|discriminate]. destruct (retry_step c _ _) as [[r o1]|]; [|discriminate].
    injection H as <- <-. rewrite vretry_msgs. reflexivity.
  - destruct (0 <? wc_retry c); [|discriminate]. destruct (w_chan s); [|discriminate]. destruct (retry_step c _ _) as [[r o1]|]; [|discriminate].
    injection H as <- <-. rewrite vretry_msgs. reflexivity.
  - destruct (0 <? wc_retry c); [|discriminate]. destruct (w_chan s); [|discriminate]. destruct (retry_step c _ _) as [[r o1]|]; [|discriminate].
    injection H as <- <-. rewrite vretry_msgs. reflexivity.
  - destruct (_ && _ && _); [|discriminate]. destruct (retry_step c _ _) as [[r o1]|]; [|discriminate]. injection H as <- <-. rewrite vretry_msgs. reflexivity.
  - destruct (_ && _ && _); [|discriminate]. destruct (retry_step c _ _) as [[r o1]|]; [|discriminate]. injection H as <- <-. rewrite vretry_msgs. reflexivity.
  - destruct (_ && _ && _); [|discriminate]. destruct (retry_step c _ _) as [[r o1]|]; [|discriminate]. injection H as <- <-. rewrite vretry_msgs. reflexivity.
  - destruct (_ && _ && _); [|discriminate]. destruct (retry_step c _ _) as [[r o1]|]; [|discriminate]. injection H as <- <-. rewrite vretry_msgs. reflexivity.
  - destruct (_ && _ && _); [|discriminate]. destruct (retry_step c _ _) as [[r o1]|]; [|discriminate]. injection H as <- <-. rewrite vretry_msgs. reflexivity.
Qed.

(* ------------------------------------------------------------------ *)
(** * The invariant holds *)

Lemma kept_at_app i a b : kept_at i (a ++ b) = kept_at i a ++ kept_at i b. Proof. apply flat_map_app. Qed.
Lemma dropped_at_app i a b : dropped_at i (a ++ b) = dropped_at i a ++ dropped_at i b. Proof. apply flat_map_app. Qed.
Lemma kept_all_app a b : kept_all (a ++ b) = kept_all a ++ kept_all b. Proof. apply flat_map_app. Qed.
Lemma puts_of_app i a b : puts_of i (a ++ b) = puts_of i a ++ puts_of i b. Proof. apply flat_map_app. Qed.
Lemma puts_app a b : puts (a ++ b) = puts a ++ puts b. Proof. apply flat_map_app. Qed.
Lemma takes_app a b : takes (a ++ b) = takes a ++ takes b. Proof. apply flat_map_app. Qed.
Lemma takes_of_app i a b : takes_of i (a ++ b) = takes_of i a ++ takes_of i b. Proof. apply flat_map_app. Qed.
Lemma wtrace_app i a b : wtrace i (a ++ b) = wtrace i a ++ wtrace i b. Proof. apply flat_map_app. Qed.

Lemma takes_seq_nil tr o n : (forall w, takes_of w o = []) ->
  flat_map (fun w => takes_of w (tr ++ o)) (seq 0 n) = flat_map (fun w => takes_of w tr) (seq 0 n).
Proof. intros H. apply flat_map_ext. intros w. rewrite takes_of_app, H, app_nil_r. reflexivity. Qed.

Lemma flat_map_ext_in {A B} (f g : A -> list B) l : (forall a, In a l -> f a = g a) -> flat_map f l = flat_map g l.
Proof. induction l as [|a l IH]; intros H; [reflexivity|]. cbn [flat_map]. rewrite (H a (or_introl eq_refl)), IH; auto. intros b Hb. apply H. right. exact Hb. Qed.

Lemma takes_seq_one tr w m b n : (b <= w < b + n)%nat ->
  Permutation (flat_map (fun v => takes_of v (tr ++ [BTake w m])) (seq b n)) (flat_map (fun v => takes_of v tr) (seq b n) ++ [m]).
Proof.
  revert b. induction n as [|n IH]; intros b H; [lia|]. cbn [seq flat_map]. rewrite takes_of_app.
  destruct (Nat.eq_dec b w) as [<-|N].
  - cbn [takes_of flat_map]. rewrite Nat.eqb_refl. cbn [app].
    rewrite <- !app_assoc. apply Permutation_app_head.
    rewrite (flat_map_ext_in _ (fun v => takes_of v tr)) at 1; [|].
    + apply Permutation_app_comm.
    + intros v Hv. apply in_seq in Hv. rewrite takes_of_app. cbn [takes_of flat_map].
      replace (v =? b)%nat with false by (symmetry; apply Nat.eqb_neq; lia). rewrite app_nil_r. reflexivity.
  - cbn [takes_of flat_map]. replace (b =? w)%nat with false by (symmetry; apply Nat.eqb_neq; lia).
    rewrite app_nil_r, <- app_assoc. apply Permutation_app_head. apply IH. lia.
Qed.

Lemma pinv_start c limits n cap now : pinv c limits n cap now (startWriter limits n cap now) [].
Proof.
  constructor; cbn [startWriter p_subs p_jobs p_ws].
  - intros i su E. rewrite nth_error_map in E. destruct (nth_error limits i) as [z|] eqn:EL; [|discriminate]. injection E as <-.
    cbn. repeat split; auto. intros. lia.
  - apply map_length.
  - reflexivity.
  - cbn. lia.
  - cbn. clear. induction limits as [|z l IH]; [constructor|exact IH].
  - cbn. generalize (seq 0 (length (repeat (newWorker cap now) n))). induction l as [|a l IH]; [constructor|exact IH].
  - apply repeat_length.
  - intros w st E. apply nth_error_In in E. apply repeat_spec in E. subst st. split; [exists []; reflexivity|reflexivity].
Qed.

Lemma pool_work_inv c limits n cap now s tr w l jobs pre s' o :
  pinv c limits n cap now s tr -> pool_work c s w l jobs pre = Some (s', o) ->
  (match l with PMsg _ _ d => p_jobs s = d :: jobs /\ pre = [BTake w d] | _ => p_jobs s = jobs /\ pre = [] end) ->
  pinv c limits n cap now s' (tr ++ o).
Proof.
  intros [H1 H2 H3 H4 H5 H6 H7 H8] E HL. unfold pool_work in E.
  destruct (nth_error (p_ws s) w) as [st|] eqn:EW; [|discriminate].
  destruct (wstep c st l) as [[st' ow]|] eqn:ES; [|discriminate]. injection E as <- <-.
  pose proof (messages_step _ _ _ _ _ ES) as HM.
  assert (HP : (exists d, pre = [BTake w d] /\ p_jobs s = d :: jobs /\ map snd (messages ow) = [d]) \/
               (pre = [] /\ p_jobs s = jobs /\ map snd (messages ow) = [])).
  { destruct l; destruct HL as [HL1 HL2]; eauto 6. }
  clear HL HM.
  assert (Hw : (w < length (p_ws s))%nat) by (apply nth_error_Some; congruence).
  assert (Q : forall i, kept_at i (pre ++ [BW w ow]) = [] /\ puts_of i (pre ++ [BW w ow]) = [] /\ dropped_at i (pre ++ [BW w ow]) = [] /\
      kept_all (pre ++ [BW w ow]) = [] /\ puts (pre ++ [BW w ow]) = []).
  { intros i. destruct HP as [(d & -> & _)|(-> & _)]; auto. }
  constructor; cbn [p_subs p_jobs p_ws].
  - intros i su E. destruct (Q i) as (Q1 & Q2 & Q3 & _). rewrite kept_at_app, puts_of_app, dropped_at_app, Q1, Q2, Q3, !app_nil_r. auto.
  - exact H2.
  - destruct (Q 0%nat) as (_ & _ & _ & _ & Q5). rewrite puts_app, takes_app, Q5, app_nil_r, H3.
    destruct HP as [(d & -> & HJ & _)|(-> & HJ & _)]; rewrite HJ; cbn [takes flat_map app]; rewrite <- ?app_assoc, ?app_nil_r; reflexivity.
  - destruct HP as [(d & -> & HJ & _)|(-> & HJ & _)]; rewrite HJ in H4; cbn [length] in H4; lia.
  - destruct (Q 0%nat) as (_ & _ & _ & Q4 & Q5). rewrite kept_all_app, puts_app, Q4, Q5, !app_nil_r. exact H5.
  - rewrite upd_length. destruct HP as [(d & -> & _)|(-> & _)].
    + rewrite app_assoc, takes_app. cbn [takes flat_map]. rewrite app_nil_r.
      rewrite (takes_seq_nil (tr ++ [BTake w d]) [BW w ow]); [|reflexivity].
      rewrite takes_app. change (takes [BTake w d]) with [d]. rewrite takes_seq_one; [|lia].
      apply Permutation_app_tail. exact H6.
    + cbn [app]. rewrite takes_app. change (takes [BW w ow]) with (@nil bytes). rewrite app_nil_r, takes_seq_nil; auto.
  - rewrite upd_length. exact H7.
  - intros v st2 E2. destruct (Nat.eq_dec w v) as [<-|N].
    + rewrite (upd_same _ _ _ _ EW) in E2. injection E2 as <-. destruct (H8 w st EW) as [[ls HR] HT].
      assert (WT : wtrace w (tr ++ pre ++ [BW w ow]) = wtrace w tr ++ ow).
      { rewrite app_assoc, !wtrace_app. cbn [wtrace flat_map]. rewrite Nat.eqb_refl, app_nil_r. f_equal.
        destruct HP as [(d & -> & _)|(-> & _)]; cbn [wtrace flat_map app]; rewrite app_nil_r; reflexivity. }
      rewrite WT. split.
      * exists (ls ++ [l]). eapply wrun_snoc; eauto.
      * rewrite messages_app, map_app, HT, takes_of_app. f_equal.
        destruct HP as [(d & -> & _ & ->)|(-> & _ & ->)]; cbn [takes_of flat_map app]; rewrite ?Nat.eqb_refl; reflexivity.
    + rewrite upd_other in E2 by exact N. destruct (H8 v st2 E2) as [HR HT].
      assert (F : (v =? w)%nat = false) by (apply Nat.eqb_neq; lia).
      assert (WT : wtrace v (tr ++ pre ++ [BW w ow]) = wtrace v tr).
      { rewrite wtrace_app. rewrite <- (app_nil_r (wtrace v tr)) at 2. f_equal.
        destruct HP as [(d & -> & _)|(-> & _)]; cbn [wtrace flat_map app]; rewrite F; reflexivity. }
      rewrite WT. split; [exact HR|]. rewrite HT, takes_of_app. rewrite <- (app_nil_r (takes_of v tr)) at 1. f_equal.
      destruct HP as [(d & -> & _)|(-> & _)]; cbn [takes_of flat_map app]; rewrite ?F; reflexivity.
Qed.

Lemma pstep_inv c limits n cap now s tr l s' o :
  pinv c limits n cap now s tr -> pstep c s l = Some (s', o) -> pinv c limits n cap now s' (tr ++ o).
Proof.
  intros Inv E. destruct l as [i m|i|i|w l|].
  - (* arrive *) destruct Inv as [H1 H2 H3 H4 H5 H6 H7 H8]. cbn [pstep] in E.
    destruct (nth_error (p_subs s) i) as [su|] eqn:EN; [|discriminate].
    destruct (sub_arrive su m) as [su' k] eqn:EA. injection E as <- <-.
    pose proof (arrive_backlog _ _ _ _ EA) as (B1 & B2 & B3 & B4).
    constructor; cbn [p_subs p_jobs p_ws].
    + intros j sj Ej. destruct (Nat.eq_dec i j) as [<-|N].
      * rewrite (upd_same _ _ _ _ EN) in Ej. injection Ej as <-. destruct (H1 i su EN) as (K1 & K2 & K3 & K4).
        rewrite kept_at_app, puts_of_app, dropped_at_app. cbn [kept_at puts_of dropped_at flat_map]. rewrite !Nat.eqb_refl.
        rewrite B1, B2, B3, K1, K2. split; [|split; [|split]].
        -- destruct k; rewrite <- ?app_assoc, ?app_nil_r; reflexivity.
        -- destruct k; cbn [app]; rewrite ?app_nil_r, ?app_length; cbn [length]; lia.
        -- exact K3.
        -- intros L. specialize (K4 L). rewrite !pending_backlog in *. rewrite B1.
           destruct k.
           ++ assert (~ (0 < su_limit su /\ su_limit su < Z.of_nat (length (concat (backlog su))) + Z.of_nat (length m))) by (intros X; apply B4 in X; discriminate).
              rewrite concat_app, app_length. cbn [concat app]. rewrite app_nil_r. lia.
           ++ rewrite app_nil_r. lia.
      * rewrite upd_other in Ej by exact N. destruct (H1 j sj Ej) as (K1 & K2 & K3 & K4).
        rewrite kept_at_app, puts_of_app, dropped_at_app. cbn [kept_at puts_of dropped_at flat_map].
        assert (F : (j =? i)%nat = false) by (apply Nat.eqb_neq; lia). rewrite F.
        destruct k; cbn [app]; rewrite ?app_nil_r; auto.
    + rewrite upd_length. exact H2.
    + rewrite puts_app, takes_app. cbn [puts takes flat_map]. rewrite !app_nil_r. exact H3.
    + exact H4.
    + rewrite kept_all_app, puts_app. change (puts [BArrive i m k]) with (@nil bytes). rewrite app_nil_r.
      destruct (flat_map_upd backlog (p_subs s) i su' su EN) as (l1 & l2 & E1 & E2). rewrite E2, B1. rewrite E1 in H5.
      destruct k; cbn [kept_all flat_map app]; rewrite ?app_nil_r.
      * rewrite H5. rewrite <- !app_assoc. do 3 apply Permutation_app_head. apply Permutation_app_comm.
      * exact H5.
    + rewrite takes_app. change (takes [BArrive i m k]) with (@nil bytes). rewrite app_nil_r, takes_seq_nil; auto.
    + exact H7.
    + intros w st Ew. rewrite wtrace_app, takes_of_app. cbn [wtrace takes_of flat_map]. rewrite !app_nil_r. auto.
  - (* pick *) destruct Inv as [H1 H2 H3 H4 H5 H6 H7 H8]. cbn [pstep] in E.
    destruct (nth_error (p_subs s) i) as [su|] eqn:EN; [|discriminate].
    destruct (sub_pick su) as [su'|] eqn:EA; [|discriminate]. injection E as <- <-. rewrite app_nil_r.
    pose proof (pick_backlog _ _ EA) as (B1 & B2 & B3).
    constructor; cbn [p_subs p_jobs p_ws]; auto.
    + intros j sj Ej. destruct (Nat.eq_dec i j) as [<-|N].
      * rewrite (upd_same _ _ _ _ EN) in Ej. injection Ej as <-. destruct (H1 i su EN) as (K1 & K2 & K3 & K4).
        rewrite pending_backlog in *. rewrite B1, B2, B3. auto.
      * rewrite upd_other in Ej by exact N. auto.
    + rewrite upd_length. exact H2.
    + destruct (flat_map_upd backlog (p_subs s) i su' su EN) as (l1 & l2 & E1 & E2). rewrite E2, B1, <- E1. exact H5.
  - (* put *) destruct Inv as [H1 H2 H3 H4 H5 H6 H7 H8]. cbn [pstep] in E.
    destruct (nth_error (p_subs s) i) as [su|] eqn:EN; [|discriminate].
    destruct (sub_return su) as [[m su']|] eqn:EA; [|discriminate].
    destruct (Nat.ltb_spec (length (p_jobs s)) wjobs_cap) as [HC|]; [|discriminate]. injection E as <- <-. unfold wjobs_cap in HC.
    pose proof (return_backlog _ _ _ EA) as (B1 & B2 & B3).
    constructor; cbn [p_subs p_jobs p_ws].
    + intros j sj Ej. destruct (Nat.eq_dec i j) as [<-|N].
      * rewrite (upd_same _ _ _ _ EN) in Ej. injection Ej as <-. destruct (H1 i su EN) as (K1 & K2 & K3 & K4).
        rewrite kept_at_app, puts_of_app, dropped_at_app. cbn [kept_at puts_of dropped_at flat_map]. rewrite !Nat.eqb_refl.
        rewrite B2, B3, K1, K2, B1. rewrite !app_nil_r, <- app_assoc. split; [reflexivity|]. split; [reflexivity|]. split; [exact K3|].
        intros L. specialize (K4 L). rewrite pending_backlog in *. rewrite B1 in K4. cbn [concat] in K4. rewrite app_length in K4. lia.
      * rewrite upd_other in Ej by exact N. destruct (H1 j sj Ej) as (K1 & K2 & K3 & K4).
        rewrite kept_at_app, puts_of_app, dropped_at_app. cbn [kept_at puts_of dropped_at flat_map].
        assert (F : (j =? i)%nat = false) by (apply Nat.eqb_neq; lia). rewrite F. cbn [app]. rewrite ?app_nil_r. auto.
    + rewrite upd_length. exact H2.
    + rewrite puts_app, takes_app. cbn [puts takes flat_map]. rewrite !app_nil_r, H3, app_assoc. reflexivity.
    + rewrite app_length. cbn [length]. lia.
    + rewrite kept_all_app, puts_app. change (kept_all [BPut i m]) with (@nil bytes). rewrite app_nil_r. change (puts [BPut i m]) with [m].
      destruct (flat_map_upd backlog (p_subs s) i su' su EN) as (l1 & l2 & E1 & E2). rewrite E2. rewrite E1, B1 in H5.
      rewrite H5. rewrite <- !app_assoc. apply Permutation_app_head. cbn [app]. symmetry. apply Permutation_middle.
    + rewrite takes_app. change (takes [BPut i m]) with (@nil bytes). rewrite app_nil_r, takes_seq_nil; auto.
    + exact H7.
    + intros w st Ew. rewrite wtrace_app, takes_of_app. cbn [wtrace takes_of flat_map]. rewrite !app_nil_r. auto.
  - (* work *) cbn [pstep] in E. destruct l; try discriminate E; try (eapply pool_work_inv; [exact Inv|exact E|split; reflexivity]).
    destruct (p_jobs s) as [|m r] eqn:EJ; [discriminate|]. destruct (beqs m data) eqn:EB; [|discriminate]. apply beqs_eq in EB. subst m.
    eapply pool_work_inv; [exact Inv|exact E|]. rewrite EJ. auto.
  - (* stop *) destruct Inv as [H1 H2 H3 H4 H5 H6 H7 H8]. cbn [pstep] in E. injection E as <- <-. rewrite app_nil_r.
    constructor; cbn [p_subs p_jobs p_ws]; auto.
    + unfold close_all. rewrite map_length. exact H6.
    + unfold close_all. rewrite map_length. exact H7.
    + intros w st E. unfold close_all in E. rewrite nth_error_map in E. destruct (nth_error (p_ws s) w) as [st0|] eqn:E0; [|discriminate].
      cbn [option_map] in E. injection E as <-. destruct (H8 w st0 E0) as [[ls HR] HT]. split; [|exact HT].
      exists (ls ++ [PClose]). rewrite <- (app_nil_r (wtrace w tr)). eapply wrun_snoc; [exact HR|].
      cbn [wstep]. destruct (w_pc st0); reflexivity.
Qed.

Lemma pool_inv c limits n cap now ls s tr : prun c (startWriter limits n cap now) ls = Some (s, tr) -> pinv c limits n cap now s tr.
Proof. apply (prun_ind c (startWriter limits n cap now) (pinv c limits n cap now)); [apply pinv_start|intros; eapply pstep_inv; eauto]. Qed.

(* ------------------------------------------------------------------ *)
(** * Consequences *)

Lemma pool_conserves c limits n cap now ls s tr : prun c (startWriter limits n cap now) ls = Some (s, tr) ->
  Permutation (kept_all tr)
    (flat_map (fun w => map snd (messages (wtrace w tr))) (seq 0 n) ++ p_jobs s ++ flat_map backlog (p_subs s)) /\
  (length (p_jobs s) <= 1024)%nat /\ length (p_ws s) = n.
Proof.
  intros H. apply pool_inv in H. destruct H as [H1 H2 H3 H4 H5 H6 H7 H8]. split; [|auto].
  rewrite H5, H3, app_assoc. apply Permutation_app_tail. apply Permutation_app_tail.
  rewrite H6, H7. erewrite flat_map_ext_in; [reflexivity|]. intros w Hw. apply in_seq in Hw.
  destruct (nth_error (p_ws s) w) as [st|] eqn:E; [|apply nth_error_None in E; lia].
  destruct (H8 w st E) as [_ HT]. symmetry. exact HT.
Qed.

Lemma pool_worker c limits n cap now ls s tr w st : prun c (startWriter limits n cap now) ls = Some (s, tr) ->
  nth_error (p_ws s) w = Some st -> exists ls', wrun c (newWorker cap now) ls' = Some (st, wtrace w tr).
Proof. intros H E. apply pool_inv in H. destruct H as [H1 H2 H3 H4 H5 H6 H7 H8]. destruct (H8 w st E) as [HR _]. exact HR. Qed.

Lemma arrived_split i tr : Permutation (arrived_at i tr) (kept_at i tr ++ dropped_at i tr).
Proof.
  induction tr as [|o tr IH]; [constructor|]. unfold arrived_at, kept_at, dropped_at in *. cbn [flat_map].
  destruct o as [j m k| | |]; cbn [app]; try exact IH. destruct (Nat.eqb i j); [|destruct k; exact IH].
  destruct k; cbn [app]; [constructor; exact IH|]. rewrite IH. apply Permutation_middle.
Qed.

Lemma pool_sub c limits n cap now ls s tr i su : prun c (startWriter limits n cap now) ls = Some (s, tr) ->
  nth_error (p_subs s) i = Some su ->
  kept_at i tr = puts_of i tr ++ backlog su /\
  Permutation (arrived_at i tr) (kept_at i tr ++ dropped_at i tr) /\
  su_dropped su = Z.of_nat (length (dropped_at i tr)) /\
  nth_error limits i = Some (su_limit su) /\
  (0 < su_limit su -> Z.of_nat (length (concat (backlog su))) <= su_limit su).
Proof.
  intros H E. apply pool_inv in H. destruct H as [H1 H2 H3 H4 H5 H6 H7 H8]. destruct (H1 i su E) as (K1 & K2 & K3 & K4).
  rewrite pending_backlog in K4. split; [exact K1|]. split; [apply arrived_split|]. auto.
Qed.

Lemma pool_drop_iff c s i m s' o su : nth_error (p_subs s) i = Some su -> pstep c s (QArrive i m) = Some (s', o) ->
  exists k, o = [BArrive i m k] /\
   (k = false <-> 0 < su_limit su /\ su_limit su < Z.of_nat (length (concat (backlog su))) + Z.of_nat (length m)).
Proof.
  intros EN E. cbn [pstep] in E. rewrite EN in E. destruct (sub_arrive su m) as [su' k] eqn:EA. injection E as <- <-.
  exists k. split; [reflexivity|]. rewrite <- pending_backlog. apply (arrive_backlog _ _ _ _ EA).
Qed.

Lemma pool_serves c limits n cap now ls s tr w st : (1 <= wc_size c)%nat -> 0 <= cap ->
  prun c (startWriter limits n cap now) ls = Some (s, tr) -> nth_error (p_ws s) w = Some st ->
  w_pc st <> WStopping -> w_pc st <> WStopped ->
  (exists k, forced c (fun st' => w_pc st' = WIdle) k st) /\
  (w_pc st = WIdle -> forall m r t t', p_jobs s = m :: r -> exists s' o, pstep c s (QWork w (PMsg t t' m)) = Some (s', o) /\ p_jobs s' = r).
Proof.
  intros Hs Hc H E N1 N2. destruct (pool_worker _ _ _ _ _ _ _ _ _ _ H E) as [ls' HR]. split.
  - pose proof (ok_run c Hs _ _ _ _ _ Hc HR) as Ok. eexists.
    refine (forced_trans c Hs (fun s' => okstate c s' /\ w_pc s' = WIdle) _ _ 0 _ st (to_idle c Hs st Ok N1 N2)). intros s1 (_ & P1). exact P1.
  - intros P m r t t' EJ. cbn [pstep]. rewrite EJ, beqs_refl. unfold pool_work. rewrite E. unfold wstep. rewrite P.
    destruct (check _ _ _) as [st' o]. do 2 eexists. split; reflexivity.
Qed.

(** One subject, one worker: everything in order. *)
Lemma pool_in_order c limit cap now ls s tr st su : (1 <= wc_size c)%nat -> 0 <= cap ->
  prun c (startWriter [limit] 1 cap now) ls = Some (s, tr) -> p_ws s = [st] -> p_subs s = [su] ->
  kept_at 0 tr = map snd (messages (wtrace 0 tr)) ++ p_jobs s ++ backlog su /\
  concat (bodies (wtrace 0 tr)) ++ held st = concat (map (accepted (wc_rules c)) (map snd (messages (wtrace 0 tr)))).
Proof.
  intros Hs Hc H EW ES. pose proof H as H0. apply pool_inv in H. destruct H as [H1 H2 H3 H4 H5 H6 H7 H8].
  assert (E0 : nth_error (p_ws s) 0 = Some st) by (rewrite EW; reflexivity).
  destruct (H8 0%nat st E0) as [[ls' HR] HT].
  destruct (H1 0%nat su ltac:(rewrite ES; reflexivity)) as (K1 & _). split.
  - rewrite K1. assert (P0 : puts_of 0 tr = puts tr /\ takes_of 0 tr = takes tr).
    { clear - H0.
      assert (W : forall s tr, (length (p_subs s) = 1 /\ length (p_ws s) = 1 /\ puts_of 0 tr = puts tr /\ takes_of 0 tr = takes tr)%nat -> puts_of 0 tr = puts tr /\ takes_of 0 tr = takes tr) by (intros; tauto).
      apply (W s).
      refine (prun_ind c (startWriter [limit] 1 cap now) (fun s tr => length (p_subs s) = 1 /\ length (p_ws s) = 1 /\ puts_of 0 tr = puts tr /\ takes_of 0 tr = takes tr)%nat _ _ ls s tr H0).
      - repeat split.
      - clear. intros s tr l s' o (L1 & L2 & P & T) E.
        assert (PW : forall w l jobs pre, pool_work c s w l jobs pre = Some (s', o) -> (pre = [] \/ exists m, pre = [BTake w m]) ->
          (length (p_subs s') = 1 /\ length (p_ws s') = 1 /\ puts_of 0 (tr ++ o) = puts (tr ++ o) /\ takes_of 0 (tr ++ o) = takes (tr ++ o))%nat).
        { intros w l0 jobs pre E1 HP. unfold pool_work in E1. destruct (nth_error (p_ws s) w) as [st|] eqn:EN; [|discriminate].
          destruct (wstep c st l0) as [[st' ow]|]; [|discriminate]. injection E1 as <- <-. cbn [p_subs p_ws]. rewrite upd_length.
          split; [exact L1|]. split; [exact L2|].
          assert (w = 0)%nat by (assert (w < length (p_ws s))%nat by (apply nth_error_Some; congruence); lia). subst w.
          rewrite puts_of_app, puts_app, takes_of_app, takes_app, P, T.
          destruct HP as [->|[m ->]]; split; reflexivity. }
        destruct l as [i m|i|i|w l|]; cbn [pstep] in E.
        + destruct (nth_error (p_subs s) i) as [su|] eqn:EN; [|discriminate]. destruct (sub_arrive su m) as [su' k]. injection E as <- <-.
          cbn [p_subs p_ws]. rewrite upd_length, puts_of_app, puts_app, takes_of_app, takes_app. cbn [puts_of puts takes_of takes flat_map]. rewrite !app_nil_r. auto.
        + destruct (nth_error (p_subs s) i) as [su|] eqn:EN; [|discriminate]. destruct (sub_pick su) as [su'|]; [|discriminate]. injection E as <- <-.
          cbn [p_subs p_ws]. rewrite upd_length, app_nil_r. auto.
        + destruct (nth_error (p_subs s) i) as [su|] eqn:EN; [|discriminate]. destruct (sub_return su) as [[m su']|]; [|discriminate].
          destruct (Nat.ltb _ _); [|discriminate]. injection E as <- <-. cbn [p_subs p_ws]. rewrite upd_length, puts_of_app, puts_app, takes_of_app, takes_app.
          assert (i = 0)%nat by (assert (i < length (p_subs s))%nat by (apply nth_error_Some; congruence); lia). subst i.
          cbn [puts_of puts takes_of takes flat_map Nat.eqb app]. rewrite P, T, ?app_nil_r. auto.
        + destruct l; try discriminate E; try (eapply PW; [exact E|auto]).
          destruct (p_jobs s) as [|m r]; [discriminate|]. destruct (beqs m data); [|discriminate]. eapply PW; [exact E|eauto].
        + injection E as <- <-. cbn [p_subs p_ws]. unfold close_all. rewrite map_length, app_nil_r. auto. }
    destruct P0 as [P0 T0]. rewrite P0, H3, HT, T0, <- app_assoc. reflexivity.
  - destruct (pair_data c Hs cap now ls' st _ Hc HR) as [D _]. rewrite D. unfold input. rewrite map_map. reflexivity.
Qed.

(* ------------------------------------------------------------------ *)
(** * After Stop *)

(** Every worker has returned. *)
Definition all_stopped (s : wpool) : Prop := Forall (fun st => w_pc st = WStopped) (p_ws s).
(** The callback of subscription [i] is blocked with message [m]. *)
Definition callback_holds (s : wpool) (i : nat) (m : bytes) : Prop := exists su, nth_error (p_subs s) i = Some su /\ su_hand su = Some m.

Lemma stopped_step c st l st' o : w_pc st = WStopped -> wstep c st l = Some (st', o) -> w_pc st' = WStopped /\ match l with PMsg _ _ _ => False | _ => True end.
Proof.
  intros P H. destruct l; unfold wstep in H; destruct (w_pc st) eqn:PE; try discriminate P; try discriminate H.
  - injection H as <- <-. auto.
  - destruct (0 <? wc_retry c); [|discriminate]. destruct (w_chan st); [|discriminate]. destruct (retry_step c _ _) as [[r o1]|]; [|discriminate].
    injection H as <- <-. auto.
  - destruct (_ && _ && _); [|discriminate]. destruct (retry_step c _ _) as [[r o1]|]; [|discriminate]. injection H as <- <-. auto.
Qed.

Lemma upd_Forall {A} (P : A -> Prop) l i x : Forall P l -> P x -> Forall P (upd l i x).
Proof. intros H. revert i. induction H as [|y l Hy Hl IH]; intros [|i] Hx; simpl; constructor; auto. Qed.

Lemma stopped_pstep c s l s' o i m : all_stopped s -> length (p_jobs s) = 1024%nat -> callback_holds s i m ->
  pstep c s l = Some (s', o) -> all_stopped s' /\ p_jobs s' = p_jobs s /\ callback_holds s' i m.
Proof.
  intros A J (su & EN & EH) E.
  assert (PW : forall w l jobs pre, pool_work c s w l jobs pre = Some (s', o) -> jobs = p_jobs s -> all_stopped s' /\ p_jobs s' = p_jobs s /\ callback_holds s' i m).
  { intros w l0 jobs pre E1 EJ. unfold pool_work in E1. destruct (nth_error (p_ws s) w) as [st|] eqn:EW; [|discriminate].
    destruct (wstep c st l0) as [[st' ow]|] eqn:ES; [|discriminate]. injection E1 as <- <-. unfold all_stopped, callback_holds. cbn [p_ws p_jobs p_subs].
    split; [|split; [exact EJ|eauto]]. apply upd_Forall; [exact A|]. apply (stopped_step c st l0 st' ow); [|exact ES].
    unfold all_stopped in A. rewrite Forall_forall in A. apply A. eapply nth_error_In; eauto. }
  destruct l as [j x|j|j|w l|]; cbn [pstep] in E.
  - destruct (nth_error (p_subs s) j) as [sj|] eqn:EJ; [|discriminate]. destruct (sub_arrive sj x) as [sj' k] eqn:EA. injection E as <- <-.
    unfold all_stopped, callback_holds. cbn [p_ws p_jobs p_subs]. split; [exact A|]. split; [reflexivity|].
    destruct (Nat.eq_dec j i) as [->|N].
    + exists sj'. split; [eapply upd_same; eauto|]. assert (sj = su) by congruence. subst sj. unfold sub_arrive in EA. destruct (_ && _); injection EA as <- <-; exact EH.
    + exists su. rewrite upd_other by exact N. auto.
  - destruct (nth_error (p_subs s) j) as [sj|] eqn:EJ; [|discriminate]. destruct (sub_pick sj) as [sj'|] eqn:EA; [|discriminate]. injection E as <- <-.
    unfold all_stopped, callback_holds. cbn [p_ws p_jobs p_subs]. split; [exact A|]. split; [reflexivity|].
    destruct (Nat.eq_dec j i) as [->|N].
    + assert (sj = su) by congruence. subst sj. unfold sub_pick in EA. rewrite EH in EA. discriminate.
    + exists su. rewrite upd_other by exact N. auto.
  - destruct (nth_error (p_subs s) j) as [sj|] eqn:EJ; [|discriminate]. destruct (sub_return sj) as [[x sj']|]; [|discriminate].
    rewrite J in E. discriminate E.
  - destruct l; try discriminate E; try (eapply PW; [exact E|reflexivity]).
    destruct (p_jobs s) as [|y r] eqn:EJ; [discriminate|]. destruct (beqs y data); [|discriminate].
    unfold pool_work in E. destruct (nth_error (p_ws s) w) as [st|] eqn:EW; [|discriminate].
    destruct (wstep c st (PMsg t t' data)) as [[st' ow]|] eqn:ES; [|discriminate].
    destruct (stopped_step c st (PMsg t t' data) st' ow) as [_ X]; [|exact ES|destruct X].
    unfold all_stopped in A. rewrite Forall_forall in A. apply A. eapply nth_error_In; eauto.
  - injection E as <- <-. unfold all_stopped, callback_holds. cbn [p_ws p_jobs p_subs]. split; [|eauto].
    unfold close_all. apply Forall_map. unfold all_stopped in A. eapply Forall_impl; [|exact A]. intros st P. cbn [wstep]. rewrite P. reflexivity.
Qed.

Lemma stuck_forever c s i m : all_stopped s -> length (p_jobs s) = 1024%nat -> callback_holds s i m ->
  forall ls s' tr, prun c s ls = Some (s', tr) -> callback_holds s' i m /\ p_jobs s' = p_jobs s.
Proof.
  intros A J K. enough (forall ls s' tr, prun c s ls = Some (s', tr) -> all_stopped s' /\ p_jobs s' = p_jobs s /\ callback_holds s' i m) as X.
  { intros ls s' tr H. destruct (X ls s' tr H) as (_ & X2 & X3). auto. }
  apply (prun_ind c s (fun s' _ => all_stopped s' /\ p_jobs s' = p_jobs s /\ callback_holds s' i m)); [auto|].
  intros s1 tr l s2 o (A1 & J1 & K1) E. destruct (stopped_pstep c s1 l s2 o i m A1) as (A2 & J2 & K2); try congruence; auto.
  split; [exact A2|]. split; [congruence|exact K2].
Qed.

(** One message through the subscription into the channel. *)
Lemma put_one c limit m q ws : Z.of_nat (length m) <= limit -> (length q < 1024)%nat ->
  prun c (mkWP [newSub limit] q ws) [QArrive 0 m; QPick 0; QPut 0] = Some (mkWP [newSub limit] (q ++ [m]) ws, [BArrive 0 m true; BPut 0 m]).
Proof.
  intros HL HQ. cbn [prun pstep p_subs nth_error]. unfold sub_arrive, newSub, pending_bytes. cbn [su_limit su_waiting su_hand su_dropped concat length].
  replace (limit <? Z.of_nat 0 + 0 + Z.of_nat (length m)) with false by lia. rewrite andb_false_r.
  cbn [upd p_subs p_jobs p_ws nth_error sub_pick su_hand su_waiting app su_dropped su_limit sub_return].
  unfold wjobs_cap. replace (length q <? 1024)%nat with true by (symmetry; apply Nat.ltb_lt; lia). reflexivity.
Qed.

Lemma put_many c limit m ws k : Z.of_nat (length m) <= limit -> (k <= 1024)%nat ->
  exists ls tr, prun c (mkWP [newSub limit] [] ws) ls = Some (mkWP [newSub limit] (repeat m k) ws, tr) /\ kept_all tr = repeat m k /\ (forall w, wtrace w tr = []).
Proof.
  intros HL. induction k as [|k IH]; intros HK.
  - exists [], []. repeat split.
  - destruct IH as (ls & tr & E & T & T2); [lia|]. exists (ls ++ [QArrive 0 m; QPick 0; QPut 0]), (tr ++ [BArrive 0 m true; BPut 0 m]).
    rewrite prun_app, E, put_one; [|exact HL|rewrite repeat_length; lia].
    rewrite <- (Nat.add_1_r k), repeat_app. cbn [repeat]. split; [reflexivity|]. split.
    + rewrite kept_all_app, T. reflexivity.
    + intros w. rewrite wtrace_app, T2. reflexivity.
Qed.

Lemma stop_worker c cap now : exists ls st o, wrun c (newWorker cap now) (PClose :: ls) = Some (st, o) /\ w_pc st = WStopped /\ messages o = [] /\ posts o = [] /\
  (forall q su, exists tr, prun c (mkWP [su] q (close_all c [newWorker cap now])) (map (QWork 0) ls) = Some (mkWP [su] q [st], tr) /\ kept_all tr = [] /\ wtrace 0 tr = o).
Proof.
  destruct (0 <? wc_retry c) eqn:HR.
  - exists [PStop; PRetry LStop; PDone]. cbn [wrun wstep newWorker w_pc w_closed]. rewrite HR. cbn [w_pc is_in is_stop negb andb orb w_retry].
    unfold retry_step, newRetry. cbn [rstep r_ph w_retry set_retry w_pc].
    do 2 eexists. split; [reflexivity|]. split; [reflexivity|]. split; [reflexivity|]. split; [reflexivity|]. intros q su. eexists. split.
    + cbn [map prun pstep pool_work p_ws close_all newWorker wstep w_pc nth_error w_closed]. rewrite HR.
      cbn [upd p_ws p_subs p_jobs nth_error w_pc is_in is_stop negb andb orb w_retry]. unfold pool_work. cbn [upd p_ws p_subs p_jobs nth_error].
      unfold wstep. cbn [w_pc is_in is_stop negb andb orb w_retry]. rewrite HR. cbn [w_pc is_in is_stop negb andb orb w_retry]. unfold retry_step, newRetry. cbn [rstep r_ph w_retry set_retry w_pc upd p_ws p_subs p_jobs nth_error]. reflexivity.
    + cbn. auto.
  - exists [PStop]. cbn [wrun wstep newWorker w_pc w_closed]. rewrite HR.
    do 2 eexists. split; [reflexivity|]. split; [reflexivity|]. split; [reflexivity|]. split; [reflexivity|]. intros q su. eexists. split.
    + cbn [map prun pstep pool_work p_ws close_all newWorker wstep w_pc nth_error w_closed]. unfold pool_work. cbn [p_ws nth_error wstep w_pc w_closed]. rewrite HR. cbn [upd p_ws p_subs p_jobs]. reflexivity.
    + cbn. auto.
Qed.

(** For any message: 1024 of them in the channel and one in the callback, none taken, when Stop is called. *)
Lemma stop_leaks c limit m cap now : Z.of_nat (length m) <= limit ->
  exists ls s tr, prun c (startWriter [limit] 1 cap now) ls = Some (s, tr) /\ all_stopped s /\
    kept_all tr = repeat m 1025 /\ posts (wtrace 0 tr) = [] /\
    forall ls' s' tr', prun c s ls' = Some (s', tr') -> callback_holds s' 0 m /\ p_jobs s' = repeat m 1024.
Proof.
  intros HL. destruct (put_many c limit m [newWorker cap now] 1024 HL (le_n _)) as (l1 & t1 & E1 & K1 & W1).
  destruct (stop_worker c cap now) as (l2 & st & o & _ & P & _ & PO & HW).
  set (su := mkSub [] (Some m) 0 limit).
  destruct (HW (repeat m 1024) su) as (t2 & E2 & K2 & W2).
  assert (E3 : prun c (mkWP [newSub limit] (repeat m 1024) [newWorker cap now]) [QArrive 0 m; QPick 0; QStop] =
               Some (mkWP [su] (repeat m 1024) (close_all c [newWorker cap now]), [BArrive 0 m true])).
  { cbn [prun pstep p_subs nth_error]. unfold sub_arrive, newSub, pending_bytes. cbn [su_limit su_waiting su_hand su_dropped concat length].
    replace (limit <? Z.of_nat 0 + 0 + Z.of_nat (length m)) with false by lia. rewrite andb_false_r.
    cbn [upd p_subs p_jobs p_ws nth_error sub_pick su_hand su_waiting app su_dropped su_limit]. reflexivity. }
  exists (l1 ++ [QArrive 0 m; QPick 0; QStop] ++ map (QWork 0) l2), (mkWP [su] (repeat m 1024) [st]), (t1 ++ [BArrive 0 m true] ++ t2).
  split; [rewrite prun_app; unfold startWriter; cbn [map repeat]; rewrite E1; rewrite prun_app, E3, E2; reflexivity|].
  assert (A : all_stopped (mkWP [su] (repeat m 1024) [st])) by (constructor; [exact P|constructor]).
  split; [exact A|]. split.
  { rewrite !kept_all_app, K1, K2, app_nil_r. change (kept_all [BArrive 0 m true]) with (repeat m 1). rewrite <- repeat_app. reflexivity. }
  split. { rewrite !wtrace_app, W1, W2. cbn [wtrace flat_map app]. exact PO. }
  intros ls' s' tr' H. refine (stuck_forever c _ 0 m A _ _ ls' s' tr' H).
  - cbn [p_jobs]. apply repeat_length.
  - exists su. split; reflexivity.
Qed.

(** When a callback is in progress after the workers have returned, it can finish exactly if there is room. *)
Lemma stop_room c s i m : all_stopped s -> callback_holds s i m -> (length (p_jobs s) <= 1024)%nat ->
  ((exists ls s' tr, prun c s ls = Some (s', tr) /\ ~ callback_holds s' i m) <-> (length (p_jobs s) < 1024)%nat).
Proof.
  intros A K HJ. split.
  - intros (ls & s' & tr & H & N). assert (D : (length (p_jobs s) < 1024 \/ length (p_jobs s) = 1024)%nat) by lia. destruct D as [D|D]; [exact D|].
    destruct (stuck_forever c s i m A D K ls s' tr H) as [X _]. contradiction.
  - intros L. destruct K as (su & EN & EH).
    exists [QPut i], (mkWP (upd (p_subs s) i (mkSub (su_waiting su) None (su_dropped su) (su_limit su))) (p_jobs s ++ [m]) (p_ws s)), [BPut i m].
    split.
    + cbn [prun pstep]. rewrite EN. unfold sub_return. rewrite EH. unfold wjobs_cap.
      replace (length (p_jobs s) <? 1024)%nat with true by (symmetry; apply Nat.ltb_lt; lia). reflexivity.
    + intros (su' & EN' & EH'). cbn [p_subs] in EN'. rewrite (upd_same _ _ _ _ EN) in EN'. injection EN' as <-. discriminate EH'.
Qed.
