(** How much memory the buffers of the listeners and of the writer take (listener/listener.go, writer/writer.go,
    batch/batch.go), proved about the models of those files. *)
From Verif Require Import Base BatchSpec Batch BatchProofs Splitter SplitterProofs Retry Writer WriterSpec WriterProofs NatsSub WriterPool WriterPoolProofs WriterTop.
From Verif Require Import Timestamps NumSpec NumProofs Listener MemorySpec.
Local Open Scope Z_scope.

(* ------------------------------------------------------------------ *)
(** * One batch *)

Lemma grow_bound b k : Inv b -> b_cap b < k -> b_cap (grow b) <= 2 * k + 65536.
Proof. intros I H. rewrite grow_cap by exact I. destruct I as (I1 & I2 & I3). destruct (Z.ltb_spec (b_cap b) 32768); lia. Qed.

Lemma growIfLow_bound b : Inv b -> b_cap (growIfLow b) <= Z.max (b_cap b) (2 * Size b + 131072).
Proof.
  intros I. unfold growIfLow, maxReadSize. destruct (Z.ltb_spec (Remaining b) 65536) as [H|H]; [|lia]. unfold Remaining in H.
  rewrite grow_cap by exact I. destruct I as (I1 & I2 & I3). unfold Size in *. destruct (Z.ltb_spec (b_cap b) 32768); lia.
Qed.

Lemma grow_while_bound : forall f b n, Inv b -> b_cap (grow_while f b n) <= Z.max (b_cap b) (2 * (Size b + n) + 65536).
Proof.
  induction f as [|f IH]; intros b n I; cbn [grow_while]; [lia|]. destruct (Z.ltb_spec (Remaining b) n) as [H|H]; [|lia].
  unfold Remaining in H. pose proof (grow_bound b (Size b + n) I ltac:(lia)) as G.
  pose proof (IH (grow b) n (grow_Inv b I)) as J. rewrite grow_Size in J by exact I. lia.
Qed.

Lemma appendImpl_size b d : Inv b -> Size (appendImpl b d) = Size b + Z.of_nat (length d).
Proof. intros I. destruct (appendImpl_spec b d I) as (_ & B & _). unfold Size. rewrite B, app_length. lia. Qed.

Lemma appendImpl_bound b d : Inv b -> b_cap (appendImpl b d) <= Z.max (b_cap b) (2 * Size (appendImpl b d) + 65536).
Proof.
  intros I. rewrite appendImpl_size by exact I. unfold appendImpl. cbn [b_cap].
  pose proof (grow_while_bound (S (length d)) b (Z.of_nat (length d)) I). lia.
Qed.

Lemma countWrite_Inv b now : Inv b -> Inv (countWrite b now).
Proof. intros (I1 & I2 & I3). unfold Inv, countWrite, Size in *. cbn. lia. Qed.

Lemma Append_Inv b d now : Inv b -> Inv (Append b d now).
Proof. intros I. apply (appendImpl_spec _ d (countWrite_Inv b now I)). Qed.
Lemma Append_size b d now : Inv b -> Size (Append b d now) = Size b + Z.of_nat (length d).
Proof. intros I. unfold Append. rewrite appendImpl_size by (apply countWrite_Inv; exact I). reflexivity. Qed.
Lemma Append_bound b d now : Inv b -> b_cap (Append b d now) <= Z.max (b_cap b) (2 * Size (Append b d now) + 65536).
Proof. intros I. exact (appendImpl_bound _ d (countWrite_Inv b now I)). Qed.
Lemma grow_while_le : forall f b n, Inv b -> b_cap b <= b_cap (grow_while f b n).
Proof.
  induction f as [|f IH]; intros b n I; cbn [grow_while]; [lia|]. destruct (Remaining b <? n); [|lia].
  specialize (IH (grow b) n (grow_Inv b I)). pose proof (grow_more b I). lia.
Qed.
Lemma Append_cap_le b d now : Inv b -> b_cap b <= b_cap (Append b d now).
Proof. intros I. exact (grow_while_le (S (length d)) _ (Z.of_nat (length d)) (countWrite_Inv b now I)). Qed.
Lemma Reset_Inv b now : Inv b -> Inv (Reset b now).
Proof. intros (I1 & I2 & I3). unfold Inv, Reset, Size in *. cbn. lia. Qed.

Lemma ReadFrom_bound : forall sched b body tot now b' tot' rest e, Inv b ->
  ReadFrom_loop b body sched tot now = Some (b', tot', rest, e) ->
  Inv b' /\ b_cap b <= b_cap b' <= Z.max (b_cap b) (2 * Size b' + 131072) /\ Size b' - Size b = Z.of_nat (length tot') - Z.of_nat (length tot) /\
  Size b <= Size b' /\ (length tot' + length rest = length tot + length body)%nat.
Proof.
  induction sched as [|[k err] sched IH]; intros b body tot now b' tot' rest e I H; cbn [ReadFrom_loop] in H; [discriminate|].
  destruct (growIfLow_same b I) as (A & B & _ & _ & Cp). pose proof (growIfLow_bound b I) as Gb. set (b1 := growIfLow b) in *.
  set (n := Nat.min k (Z.to_nat (Remaining b1))) in *.
  assert (L : (length (firstn n body) + length (skipn n body) = length body)%nat) by (rewrite <- app_length, firstn_skipn; reflexivity).
  assert (I2 : Inv (extend b1 (firstn n body))).
  { apply extend_Inv; [exact A|]. subst n. rewrite firstn_length. destruct A as (A1 & A2 & A3). unfold Remaining. lia. }
  assert (Sz : Size (extend b1 (firstn n body)) = Size b + Z.of_nat (length (firstn n body))).
  { unfold Size, extend. cbn [b_buf]. rewrite app_length, B. lia. }
  assert (More : ReadFrom_loop (extend b1 (firstn n body)) (skipn n body) sched (tot ++ firstn n body) now = Some (b', tot', rest, e) ->
    Inv b' /\ b_cap b <= b_cap b' <= Z.max (b_cap b) (2 * Size b' + 131072) /\ Size b' - Size b = Z.of_nat (length tot') - Z.of_nat (length tot) /\
    Size b <= Size b' /\ (length tot' + length rest = length tot + length body)%nat).
  { intros M. apply IH in M; [|exact I2]. destruct M as (M1 & M2 & M3 & M4 & M5). rewrite Sz in M3, M4. rewrite app_length in M3, M5.
    change (b_cap (extend b1 (firstn n body))) with (b_cap b1) in M2. split; [exact M1|]. lia. }
  assert (End : forall b2 e', Some (match tot ++ firstn n body with [] => extend b1 (firstn n body) | _ => countWrite (extend b1 (firstn n body)) now end,
      tot ++ firstn n body, skipn n body, e') = Some (b2, tot', rest, e) ->
    Inv b2 /\ b_cap b <= b_cap b2 <= Z.max (b_cap b) (2 * Size b2 + 131072) /\ Size b2 - Size b = Z.of_nat (length tot') - Z.of_nat (length tot) /\
    Size b <= Size b2 /\ (length tot' + length rest = length tot + length body)%nat).
  { intros b2 e' E. injection E as <- <- <- _.
    assert (Q : forall x, (x = extend b1 (firstn n body) \/ x = countWrite (extend b1 (firstn n body)) now) ->
       Inv x /\ b_cap b <= b_cap x <= Z.max (b_cap b) (2 * Size x + 131072) /\
       Size x - Size b = Z.of_nat (length (tot ++ firstn n body)) - Z.of_nat (length tot) /\ Size b <= Size x /\
       (length (tot ++ firstn n body) + length (skipn n body) = length tot + length body)%nat).
    { intros x Hx. assert (Inv x /\ b_cap x = b_cap b1 /\ Size x = Size (extend b1 (firstn n body))) as (X1 & X2 & X3).
      { destruct Hx as [->| ->]; [auto|]. split; [apply countWrite_Inv; exact I2|]. split; reflexivity. }
      rewrite X2, X3, Sz, app_length. split; [exact X1|]. lia. }
    apply Q. destruct (tot ++ firstn n body); auto. }
  destruct err; [exact (More H)| destruct (skipn n body) eqn:Es; [|exact (More H)] | | ];
    injection H as <- <- <- _; (eapply End; reflexivity).
Qed.

(** The peak: every state of a history of the batch holds at most [k] bytes. *)
Lemma batch_memory c now os b es k : 0 <= c -> brun (New c now) os = Some (b, es) ->
  (forall es1 es2, es = es1 ++ es2 -> Z.of_nat (length (a_data (a_run es1))) <= k) ->
  c <= Size b + Remaining b <= Z.max c (2 * k + 131072).
Proof.
  intros Hc H Hk. pose proof (batch_history c now os b es Hc H) as (_ & _ & _ & _ & Lo). split; [exact Lo|].
  replace (Size b + Remaining b) with (b_cap b) by (unfold Remaining; lia).
  assert (G : forall os b0 a b' es', rep b0 a -> brun b0 os = Some (b', es') ->
     (forall es1 es2, es' = es1 ++ es2 -> Z.of_nat (length (a_data (fold_left a_step es1 a))) <= k) -> b_cap b' <= Z.max (b_cap b0) (2 * k + 131072)).
  2:{ exact (G os (New c now) a_empty b es (New_rep c now Hc) H Hk). }
  clear. induction os as [|o os IH]; intros b0 a b' es' R E Hk; cbn [brun] in E; [injection E as <- <-; lia|].
  destruct (bstep b0 o) as [[b1 e1]|] eqn:E1; [|discriminate]. destruct (brun b1 os) as [[b2 e2]|] eqn:E2; [|discriminate].
  injection E as <- <-. pose proof (bstep_rep _ _ _ _ _ R E1) as R1.
  assert (S1 : Size b1 <= k).
  { destruct R1 as (_ & B & _). unfold Size. rewrite B. apply (Hk e1 e2). reflexivity. }
  assert (C1 : b_cap b1 <= Z.max (b_cap b0) (2 * k + 131072)).
  { destruct R as (I & _). destruct o; cbn [bstep] in E1.
    - injection E1 as <- <-. pose proof (Append_bound b0 d now I). lia.
    - injection E1 as <- <-. unfold EnsureNewline in *. destruct (_ && _)%bool; [|lia]. pose proof (appendImpl_bound b0 [nl] I). lia.
    - injection E1 as <- <-. cbn [Reset b_cap]. lia.
    - destruct (ReadOnceFrom b0 d err now) as [[b3 got] e] eqn:Er. injection E1 as <- <-. unfold ReadOnceFrom in Er. injection Er as <- _ _.
      pose proof (growIfLow_bound b0 I) as Gb. destruct (growIfLow_same b0 I) as (_ & Bf & _).
      assert (Size b0 <= k). { revert S1. destruct (firstn _ d); unfold Size; cbn [b_buf countWrite extend]; rewrite ?app_length, Bf; lia. }
      destruct (firstn _ d); cbn [b_cap countWrite extend]; lia.
    - destruct (ReadFrom b0 body sched now) as [[[[b3 tot] rest] e]|] eqn:Er; [|discriminate]. injection E1 as <- <-.
      apply ReadFrom_bound in Er; [|exact I]. lia. }
  assert (C2 : b_cap b2 <= Z.max (b_cap b1) (2 * k + 131072)); [|lia].
  apply (IH b1 (fold_left a_step e1 a) b2 e2 R1 E2). intros x y ->. rewrite <- fold_left_app. apply (Hk (e1 ++ x) y). apply app_assoc.
Qed.

(* ------------------------------------------------------------------ *)
(** * The UDP listener *)

Lemma sendBatch_batch pf s now : ls_batch (sendBatch pf s now) = if Size (ls_batch s) <? 1 then ls_batch s else Reset (ls_batch s) now.
Proof.
  unfold sendBatch. destruct (Size (ls_batch s) <? 1); [reflexivity|]. cbn [set_batch ls_batch].
  assert (G : forall cs s0, ls_batch (fold_left (publish pf) cs s0) = ls_batch s0) by (induction cs as [|x cs IH]; intros s0; [reflexivity|]; cbn [fold_left]; rewrite IH; reflexivity).
  rewrite G. reflexivity.
Qed.

(** After maybeSendBatch the batch is empty or leaves room below batch_max_size. *)
Lemma maybeSend_batch pf c s t1 t2 : Inv (ls_batch s) ->
  let s' := maybeSendBatch pf c s t1 t2 in
  Inv (ls_batch s') /\ b_cap (ls_batch s') = b_cap (ls_batch s) /\ Size (ls_batch s') <= Size (ls_batch s) /\
  (Size (ls_batch s') = 0 \/ (Size (ls_batch s') < lc_max_size c - 65536)).
Proof.
  intros I s'. subst s'. unfold maybeSendBatch. destruct (Listener.shouldSend c (ls_batch s) t1) eqn:E.
  - rewrite sendBatch_batch. destruct (Z.ltb_spec (Size (ls_batch s)) 1) as [H|H].
    + split; [exact I|]. split; [reflexivity|]. split; [lia|]. left. unfold Size in *. lia.
    + split; [apply Reset_Inv; exact I|]. split; [reflexivity|]. unfold Reset, Size in *. cbn [b_buf length]. split; [lia|]. left. reflexivity.
  - unfold Listener.shouldSend in E. destruct (lc_max_count c <=? Writes (ls_batch s)); [discriminate|].
    destruct (lc_max_age c <=? Age (ls_batch s) t1); [discriminate|].
    destruct (Z.leb_spec (lc_max_size c - Size (ls_batch s)) maxUDPDatagramSize) as [H|H]; [discriminate|]. unfold maxUDPDatagramSize in H.
    split; [exact I|]. split; [reflexivity|]. split; [lia|]. right. lia.
Qed.

(** The state between two iterations of the UDP loop. *)
Definition udp_mem (c : lconf) (s : lstate) : Prop :=
  Inv (ls_batch s) /\ (Size (ls_batch s) = 0 \/ Size (ls_batch s) < lc_max_size c - 65536) /\
  (65536 <= lc_max_size c -> b_cap (ls_batch s) = lc_max_size c) /\
  lc_max_size c <= b_cap (ls_batch s) <= Z.max (lc_max_size c) 131072.

Lemma udp_mem_step pf c s u : 0 <= lc_max_size c -> Z.of_nat (length (u_data u)) <= 65535 -> udp_mem c s -> udp_mem c (udp_step pf c s u).
Proof.
  intros Hm Hd (I & Sz & Eq & Bd). unfold udp_step. destruct (ReadOnceFrom (ls_batch s) (u_data u) (u_err u) (u_t1 u)) as [[b got] err] eqn:Er.
  unfold ReadOnceFrom in Er. injection Er as Eb Eg _.
  destruct (growIfLow_same (ls_batch s) I) as (I1 & B1 & _ & _ & Cp). set (b1 := growIfLow (ls_batch s)) in *.
  assert (S1 : Size b1 = Size (ls_batch s)) by (unfold Size; rewrite B1; reflexivity).
  assert (K : b_cap b1 <= Z.max (lc_max_size c) 131072 /\ (65536 <= lc_max_size c -> b_cap b1 = lc_max_size c) /\ Size (ls_batch s) + 65536 <= b_cap b1).
  { subst b1. unfold growIfLow, maxReadSize. destruct (Z.ltb_spec (Remaining (ls_batch s)) 65536) as [H|H]; unfold Remaining in H.
    - rewrite grow_cap by exact I. destruct I as (J1 & J2 & J3). assert (0 <= Size (ls_batch s)) by (unfold Size; lia).
      destruct (Z.ltb_spec (b_cap (ls_batch s)) 32768); destruct (Z_lt_ge_dec (lc_max_size c) 65536) as [Q|Q]; try specialize (Eq ltac:(lia)); lia.
    - split; [lia|]. split; [exact Eq|lia]. }
  destruct K as (K1 & K2 & K3).
  assert (Gl : Z.of_nat (length got) <= 65535) by (rewrite <- Eg, firstn_length; lia).
  assert (I2 : Inv (extend b1 got)) by (apply extend_Inv; [exact I1|unfold Remaining; lia]).
  assert (S2 : Size (extend b1 got) = Size (ls_batch s) + Z.of_nat (length got)) by (unfold Size, extend; cbn [b_buf]; rewrite app_length, B1; lia).
  match goal with |- udp_mem c (maybeSendBatch pf c ?x _ _) => set (s2 := x) end.
  assert (K4 : Inv (ls_batch s2) /\ b_cap (ls_batch s2) = b_cap b1).
  { subst s2. rewrite Eg in Eb. destruct got as [|x got'].
    - cbn [ls_batch]. subst b. split; [exact I1|reflexivity].
    - cbn [ls_batch]. subst b. set (bb := countWrite (extend b1 (x :: got')) (u_t1 u)) in *.
      assert (Ib : Inv bb) by (apply countWrite_Inv; exact I2).
      assert (Sb : Size bb = Size (ls_batch s) + Z.of_nat (length (x :: got'))) by exact S2.
      assert (Cb : b_cap bb = b_cap b1) by reflexivity.
      unfold EnsureNewline. destruct (_ && _)%bool; [|split; [exact Ib|exact Cb]].
      destruct (appendImpl_spec bb [nl] Ib) as (A1 & _ & _ & _ & A5). split; [exact A1|]. rewrite A5; [exact Cb|].
      unfold Remaining. rewrite Sb, Cb. cbn [length] in *. lia. }
  destruct K4 as (K4 & K5). destruct (maybeSend_batch pf c s2 (u_t2 u) (u_t3 u) K4) as (M1 & M2 & M3 & M4).
  split; [exact M1|]. split; [exact M4|]. rewrite M2, K5. split; [exact K2|]. lia.
Qed.

Lemma udp_memory pf c now us : 0 <= lc_max_size c -> Forall (fun u => Z.of_nat (length (u_data u)) <= 65535) us ->
  let b := ls_batch (udp_run pf c (newListener c now) us) in
  (65536 <= lc_max_size c -> Size b + Remaining b = lc_max_size c) /\
  lc_max_size c <= Size b + Remaining b <= Z.max (lc_max_size c) 131072.
Proof.
  intros Hm F b. replace (Size b + Remaining b) with (b_cap b) by (unfold Remaining; lia). subst b.
  assert (G : forall s, udp_mem c s -> udp_mem c (udp_run pf c s us)).
  { induction F as [|u us Hu F IH]; intros s M; [exact M|]. cbn [udp_run fold_left]. apply IH. apply udp_mem_step; assumption. }
  destruct (G (newListener c now)) as (_ & _ & A & B).
  { unfold udp_mem, newListener. cbn [ls_batch]. split; [apply Inv_New; exact Hm|]. cbn. split; [auto|]. split; [auto|lia]. }
  split; assumption.
Qed.

(* ------------------------------------------------------------------ *)
(** * The HTTP listener *)

Definition debt (q : Listener.hreq) (r : req) : Z := match r with RDone _ => 0 | _ => adds q - todo r end.
Fixpoint debts (qs : list Listener.hreq) (rs : list req) : Z :=
  match qs, rs with
  | q :: qs', r :: rs' => debt q r + debts qs' rs'
  | _, _ => 0
  end.

(** A state a request can be in. *)
Definition rok (q : Listener.hreq) (r : req) : Prop :=
  match r with
  | RNanos _ _ => r = start_req q
  | RLines _ some _ => todo r <= adds q /\ (some = false -> adds q = 0)
  | _ => True
  end.

Lemma adds_nonneg q : 0 <= adds q. Proof. unfold adds. destruct (start_req q); lia. Qed.
Lemma todo_nonneg r : 0 <= todo r. Proof. destruct r; cbn [todo]; lia. Qed.
Lemma debt_nonneg q r : rok q r -> 0 <= debt q r.
Proof.
  pose proof (adds_nonneg q). destruct r; cbn [rok debt todo]; intros H0; try lia.
  unfold adds. rewrite <- H0. lia.
Qed.
Lemma debt_open q r B : rok q r -> adds q <= B -> debt q r <= (if open_req q r then B else 0).
Proof.
  intros K HB. pose proof (todo_nonneg r) as T. destruct r; cbn [rok debt open_req] in *.
  - unfold adds. rewrite <- K. cbn [todo]. lia.
  - destruct (Z.eqb_spec (todo (RLines segs some err)) (adds q)); cbn [negb]; lia.
  - cbn [todo]. lia.
  - lia.
Qed.

Lemma debts_nonneg : forall qs rs, Forall2 rok qs rs -> 0 <= debts qs rs.
Proof. induction 1; cbn [debts]; [lia|]. pose proof (debt_nonneg _ _ H). lia. Qed.
Lemma debts_open : forall qs rs B, Forall2 rok qs rs -> Forall (fun q => adds q <= B) qs -> debts qs rs <= opens qs rs * B.
Proof.
  intros qs rs B F. induction F as [|q r qs rs K F IH]; intros G; cbn [debts opens]; [lia|]. inversion G; subst.
  pose proof (debt_open q r B K ltac:(assumption)). specialize (IH ltac:(assumption)). destruct (open_req q r); lia.
Qed.

Lemma Forall2_set qs rs i q r' : Forall2 rok qs rs -> nth_error qs i = Some q -> rok q r' -> Forall2 rok qs (Listener.set_nth i r' rs).
Proof.
  intros F. revert i. induction F as [|x y qs rs K F IH]; intros [|i] E K'; cbn in E; try discriminate; cbn [Listener.set_nth].
  - injection E as ->. constructor; assumption.
  - constructor; [assumption|]. apply IH; assumption.
Qed.
Lemma debts_set qs rs i q r r' : Forall2 rok qs rs -> nth_error qs i = Some q -> nth_error rs i = Some r ->
  debts qs (Listener.set_nth i r' rs) = debts qs rs - debt q r + debt q r'.
Proof.
  intros F. revert i. induction F as [|x y qs rs K F IH]; intros [|i] E E'; cbn in E, E'; try discriminate; cbn [Listener.set_nth debts].
  - injection E as ->. injection E' as ->. lia.
  - rewrite (IH i E E'). lia.
Qed.
Lemma Forall2_nth {A B} (R : A -> B -> Prop) la lb i b : Forall2 R la lb -> nth_error lb i = Some b -> exists a, nth_error la i = Some a /\ R a b.
Proof. intros F. revert i. induction F as [|x y la lb H F IH]; intros [|i] E; cbn in E; try discriminate; [injection E as <-; exists x; auto|]. exact (IH i E). Qed.

(** Invariant of the HTTP listener. *)
Definition http_mem (c : lconf) (qs : list Listener.hreq) (h : hstate) : Prop :=
  Forall2 rok qs (h_reqs h) /\ Inv (ls_batch (h_l h)) /\
  Size (ls_batch (h_l h)) <= Z.max 0 (lc_max_size c - 65537) + debts qs (h_reqs h).

Lemma http_mem_step pf c qs h lab : http_mem c qs h ->
  let h' := hstep pf c h lab in
  http_mem c qs h' /\ b_cap (ls_batch (h_l h)) <= b_cap (ls_batch (h_l h')) /\
  exists K, K <= Z.max 0 (lc_max_size c - 65537) + debts qs (h_reqs h') /\
  b_cap (ls_batch (h_l h')) <= Z.max (b_cap (ls_batch (h_l h))) (2 * Z.max (Size (ls_batch (h_l h))) K + 131072).
Proof.
  intros (F & I & Sz) h'. subst h'. pose proof (debts_nonneg _ _ F) as D0.
  set (K0 := Z.max 0 (lc_max_size c - 65537)) in *. assert (0 <= K0) by (subst K0; lia).
  assert (Same : http_mem c qs h /\ b_cap (ls_batch (h_l h)) <= b_cap (ls_batch (h_l h)) /\
     exists K, K <= Z.max 0 (lc_max_size c - 65537) + debts qs (h_reqs h) /\
     b_cap (ls_batch (h_l h)) <= Z.max (b_cap (ls_batch (h_l h))) (2 * Z.max (Size (ls_batch (h_l h))) K + 131072)).
  { split; [split; [exact F|split; [exact I|exact Sz]]|]. split; [lia|]. exists 0. fold K0. lia. }
  destruct lab as [[i|] t]; cbn [hstep fst snd].
  2:{ unfold age_step. cbn [h_l h_reqs]. destruct (lc_max_age c <=? Age (ls_batch (h_l h)) t).
      - rewrite sendBatch_batch. destruct (Z.ltb_spec (Size (ls_batch (h_l h))) 1) as [L|L].
        + split; [split; [exact F|split; [cbn [h_l]; rewrite sendBatch_batch; replace (Size (ls_batch (h_l h)) <? 1) with true by lia; exact I|]]|].
          * cbn [h_l h_reqs]. rewrite sendBatch_batch. replace (Size (ls_batch (h_l h)) <? 1) with true by lia. exact Sz.
          * split; [lia|]. exists 0. fold K0. lia.
        + split; [split; [exact F|split; [cbn [h_l]; rewrite sendBatch_batch; replace (Size (ls_batch (h_l h)) <? 1) with false by lia; apply Reset_Inv; exact I|]]|].
          * cbn [h_l h_reqs]. rewrite sendBatch_batch. replace (Size (ls_batch (h_l h)) <? 1) with false by lia. unfold Reset, Size. cbn [b_buf length]. fold K0. lia.
          * cbn [Reset b_cap]. split; [lia|]. exists 0. fold K0. lia.
      - exact Same. }
  unfold req_step. destruct (nth_error (h_reqs h) i) as [r|] eqn:Er; [|exact Same].
  destruct (Forall2_nth _ _ _ _ _ F Er) as (q & Eq & K). destruct r as [body sched|segs some e|e|got].
  - destruct (ReadFrom (ls_batch (h_l h)) body sched t) as [[[[b tot] rest] e]|] eqn:Rd; [|exact Same].
    apply ReadFrom_bound in Rd; [|exact I]. destruct Rd as (R1 & R2 & R3 & R4 & R5). cbn [length] in R3, R5.
    assert (Tb : adds q = Z.of_nat (length body)) by (unfold adds; cbn [rok] in K; rewrite <- K; reflexivity).
    assert (Dq : debt q (RNanos body sched) = 0) by (cbn [debt todo]; lia).
    destruct tot as [|x tot].
    + cbn [h_l h_reqs inc_read_errors set_batch ls_batch]. rewrite (debts_set _ _ _ _ _ _ F Eq Er), Dq. cbn [debt]. cbn [length] in R3, R5.
      split; [split; [cbn [h_reqs]; eapply Forall2_set; eauto; exact Logic.I|split; [exact R1|]]|].
      * cbn [h_l h_reqs inc_read_errors set_batch ls_batch]. rewrite (debts_set _ _ _ _ _ _ F Eq Er), Dq. cbn [debt]. fold K0. lia.
      * split; [lia|]. exists (Size b). fold K0. lia.
    + cbn [h_l h_reqs inc_received set_batch ls_batch]. rewrite (debts_set _ _ _ _ _ _ F Eq Er), Dq. cbn [debt todo].
      split; [split; [cbn [h_reqs]; eapply Forall2_set; eauto; exact Logic.I|split; [exact R1|]]|].
      * cbn [h_l h_reqs inc_received set_batch ls_batch]. rewrite (debts_set _ _ _ _ _ _ F Eq Er), Dq. cbn [debt todo]. fold K0. lia.
      * split; [lia|]. exists (Size b). fold K0. lia.
  - destruct segs as [|l ls].
    + destruct some.
      * cbn [h_l h_reqs inc_received ls_batch]. split; [split; [cbn [h_reqs]; eapply Forall2_set; eauto; exact Logic.I|split; [exact I|]]|].
        -- cbn [h_l h_reqs inc_received ls_batch]. rewrite (debts_set _ _ _ _ _ _ F Eq Er). cbn [debt todo concat length]. fold K0. lia.
        -- split; [lia|]. exists 0. rewrite (debts_set _ _ _ _ _ _ F Eq Er). cbn [debt todo concat length]. fold K0. lia.
      * (* nothing was read: the request added nothing *) cbn [h_l h_reqs inc_read_errors ls_batch]. cbn [rok] in K. destruct K as (K1 & K2). specialize (K2 eq_refl).
        split; [split; [cbn [h_reqs]; eapply Forall2_set; eauto; exact Logic.I|split; [exact I|]]|].
        -- cbn [h_l h_reqs inc_read_errors ls_batch]. rewrite (debts_set _ _ _ _ _ _ F Eq Er). cbn [debt todo concat length]. fold K0. lia.
        -- split; [lia|]. exists 0. rewrite (debts_set _ _ _ _ _ _ F Eq Er). cbn [debt todo concat length]. fold K0. lia.
    + cbn [rok] in K. destruct K as (K1 & K2). cbn [todo concat] in K1. rewrite app_length in K1.
      assert (K' : rok q (RLines ls some e)) by (cbn [rok todo]; split; [lia|exact K2]).
      pose proof (Append_bound (ls_batch (h_l h)) l t I) as Ab. pose proof (Append_size (ls_batch (h_l h)) l t I) as As.
      pose proof (Append_Inv (ls_batch (h_l h)) l t I) as Ai. pose proof (Append_cap_le (ls_batch (h_l h)) l t I) as Al.
      cbn [h_l h_reqs set_batch ls_batch]. split; [split; [cbn [h_reqs]; eapply Forall2_set; eauto|split; [exact Ai|]]|].
      * cbn [h_l h_reqs set_batch ls_batch]. rewrite (debts_set _ _ _ _ _ _ F Eq Er). cbn [debt todo concat]. rewrite app_length. fold K0. lia.
      * split; [exact Al|]. exists (Size (Append (ls_batch (h_l h)) l t)). rewrite (debts_set _ _ _ _ _ _ F Eq Er). cbn [debt todo concat]. rewrite app_length. fold K0. lia.
  - destruct (maybeSend_batch pf c (h_l h) t t I) as (M1 & M2 & M3 & M4).
    assert (F' : Forall2 rok qs (Listener.set_nth i (RDone true) (h_reqs h))) by (eapply Forall2_set; eauto; exact Logic.I).
    pose proof (debts_nonneg _ _ F') as D1. cbn [h_l h_reqs inc_read_errors ls_batch].
    split; [split; [exact F'|split; [exact M1|]]|].
    * cbn [h_l h_reqs inc_read_errors ls_batch]. fold K0. subst K0. lia.
    * split; [lia|]. exists 0. fold K0. lia.
  - exact Same.
Qed.

Lemma scan_tokens_cat eager ls : forall toks e, scan_tokens eager ls = (toks, e) -> exists more, ls = toks ++ more.
Proof.
  induction ls as [|l ls IH]; intros toks e H; cbn [scan_tokens] in H; [injection H as <- _; exists []; reflexivity|].
  destruct (scan_fits eager l); [|injection H as <- _; exists (l :: ls); reflexivity].
  destruct (scan_tokens eager ls) as [ts e1]. injection H as <- _. destruct (IH ts e1 eq_refl) as (m & ->). exists m. reflexivity.
Qed.

Lemma rok_start q : rok q (start_req q).
Proof.
  destruct (start_req q) as [b s|segs some e|e|g] eqn:E; cbn [rok]; auto. unfold adds. rewrite E. cbn [todo]. split; [lia|]. intros ->.
  unfold start_req in E. destruct (_ || _)%bool; [discriminate|]. destruct (scan_tokens _ _) as [toks e0].
  destruct toks; [|discriminate]. injection E as <- _. reflexivity.
Qed.

Lemma http_mem_init c t0 qs : 0 <= lc_max_size c -> http_mem c qs (hinit c t0 qs).
Proof.
  intros Hm. unfold hinit. split; [|split]; cbn [h_reqs h_l newListener ls_batch].
  - induction qs as [|q qs IH]; cbn [map]; constructor; [apply rok_start|exact IH].
  - apply Inv_New. exact Hm.
  - assert (D : 0 <= debts qs (map start_req qs)) by (apply debts_nonneg; induction qs as [|q qs IH]; cbn [map]; constructor; [apply rok_start|exact IH]).
    unfold New, Size. cbn [b_buf length]. lia.
Qed.

Lemma hrun_app pf c h l1 l2 : hrun pf c h (l1 ++ l2) = hrun pf c (hrun pf c h l1) l2.
Proof. apply fold_left_app. Qed.

(** Every request adds at most [B] bytes, and at no moment more than [n] requests are between their first data and
    their own check of the batch. *)
Lemma http_memory pf c t0 qs labs B n : 0 <= lc_max_size c -> 0 <= B -> Forall (fun q => adds q <= B) qs ->
  (forall l1 l2, labs = l1 ++ l2 -> opens qs (h_reqs (hrun pf c (hinit c t0 qs) l1)) <= n) ->
  let b := ls_batch (h_l (hrun pf c (hinit c t0 qs) labs)) in
  Size b <= Z.max 0 (lc_max_size c - 65537) + n * B /\
  lc_max_size c <= Size b + Remaining b <= Z.max (lc_max_size c) (2 * (Z.max 0 (lc_max_size c - 65537) + n * B) + 131072).
Proof.
  intros Hm HB G Hn. set (P := Z.max 0 (lc_max_size c - 65537) + n * B) in *.
  assert (M : forall labs', (exists l2, labs = labs' ++ l2) -> let h := hrun pf c (hinit c t0 qs) labs' in
     http_mem c qs h /\ debts qs (h_reqs h) <= n * B /\ lc_max_size c <= b_cap (ls_batch (h_l h)) <= Z.max (lc_max_size c) (2 * P + 131072)).
  { induction labs' as [|lab l IH] using rev_ind; intros (l2 & E); cbn zeta.
    - pose proof (http_mem_init c t0 qs Hm) as H0. split; [exact H0|]. destruct H0 as (F & _).
      pose proof (debts_open _ _ B F G) as D. specialize (Hn [] labs eq_refl). cbn [hrun fold_left] in Hn. split; [|cbn; lia].
      change (hrun pf c (hinit c t0 qs) []) with (hinit c t0 qs). nia.
    - rewrite <- app_assoc in E. destruct IH as (H0 & D & Cp); [eexists; exact E|]. cbn zeta in *.
      set (h := hrun pf c (hinit c t0 qs) l) in *. rewrite hrun_app. fold h. change (hrun pf c h [lab]) with (hstep pf c h lab).
      destruct (http_mem_step pf c qs h lab H0) as (H1 & L1 & K & L2 & L3).
      assert (D1 : debts qs (h_reqs (hstep pf c h lab)) <= n * B).
      { destruct H1 as (F1 & _). pose proof (debts_open _ _ B F1 G) as D1. specialize (Hn (l ++ [lab]) l2). rewrite <- app_assoc in Hn. specialize (Hn E).
        rewrite hrun_app in Hn. fold h in Hn. change (hrun pf c h [lab]) with (hstep pf c h lab) in Hn. nia. }
      split; [exact H1|]. split; [exact D1|]. destruct H0 as (_ & _ & Sz). subst P. lia. }
  destruct (M labs) as (H1 & D & Cp); [exists []; symmetry; apply app_nil_r|]. cbn zeta in *. destruct H1 as (_ & _ & Sz).
  split; [subst P; lia|]. unfold Remaining. lia.
Qed.

(** The buffer never shrinks. *)
Lemma http_never_shrinks pf c t0 qs l1 l2 : 0 <= lc_max_size c ->
  let b1 := ls_batch (h_l (hrun pf c (hinit c t0 qs) l1)) in
  let b2 := ls_batch (h_l (hrun pf c (hinit c t0 qs) (l1 ++ l2))) in
  Size b1 + Remaining b1 <= Size b2 + Remaining b2.
Proof.
  intros Hm b1 b2. unfold Remaining. cut (b_cap b1 <= b_cap b2); [lia|]. subst b1 b2. rewrite hrun_app.
  assert (M : http_mem c qs (hrun pf c (hinit c t0 qs) l1)).
  { induction l1 as [|lab l IH] using rev_ind; [apply http_mem_init; exact Hm|]. rewrite hrun_app. exact (proj1 (http_mem_step pf c qs _ lab IH)). }
  revert M. generalize (hrun pf c (hinit c t0 qs) l1) as h. induction l2 as [|lab l2 IH]; intros h M; [cbn; lia|].
  cbn [hrun fold_left]. destruct (http_mem_step pf c qs h lab M) as (M1 & L1 & _). specialize (IH _ M1). unfold hrun in IH. lia.
Qed.

(** Converting a line makes it at most 20 bytes longer, and only if it has 6 bytes. *)
Lemma apply_length l p : (length (applyTimestampPrecision l p) <= 5 * length l)%nat.
Proof.
  unfold applyTimestampPrecision. destruct (ExtractTimestamp l) as [ts off] eqn:E. destruct (Z.eqb_spec off (-1)) as [|N]; [lia|].
  destruct (Nat.lt_ge_cases (length l) 6) as [L|L]; [rewrite ExtractTimestamp_short in E by exact L; injection E as <- <-; congruence|].
  destruct (SafeCalcTime ts p) as [z|] eqn:Es; [|lia]. rewrite !app_length, firstn_length.
  assert (Iz : int64 z).
  { unfold SafeCalcTime in Es. destruct (safeSignedMult ts (getPrecisionMultiplier p)) as [t ok]. destruct ok; [|discriminate].
    destruct (t <? minNanoTime) eqn:E1; [discriminate|]. destruct (maxNanoTime <? t) eqn:E2; [discriminate|]. injection Es as <-.
    unfold int64, minNanoTime, maxNanoTime, minInt64, maxInt64 in *. lia. }
  destruct (FormatInt_spec z Iz) as (_ & Lz). cbn [length].
  pose proof (Nat.le_min_r (Z.to_nat off) (length l)).
  unfold ExtractTimestamp in E. replace (Nat.ltb (length l) 6) with false in E by (symmetry; apply Nat.ltb_ge; exact L). lia.
Qed.

Lemma adds_bound q : adds q <= 5 * Z.of_nat (length (q_body q)).
Proof.
  unfold adds, start_req. destruct (_ || _)%bool; [lia|].
  destruct (scan_tokens (q_eager q) (LinesSpec.lines_of (q_body q))) as [toks e] eqn:E.
  apply scan_tokens_cat in E. destruct E as (more & E).
  assert (T : (length (concat toks) <= length (q_body q))%nat).
  { pose proof (f_equal (fun x => length (concat x)) E) as Q. cbn beta in Q. rewrite LinesSpec.lines_of_concat in Q.
    rewrite concat_app, app_length in Q. lia. }
  unfold precision_segments. set (P := q_precision q).
  assert (G : (length (concat (map (fun l => applyTimestampPrecision l P) (filter (fun l => negb (Nat.leb (length l) 1)) toks))) <= 5 * length (concat toks))%nat); [|lia].
  clear. induction toks as [|l toks IH]; cbn [filter map concat length]; [lia|]. rewrite app_length.
  destruct (negb (Nat.leb (length l) 1)); cbn [map concat]; rewrite ?app_length; pose proof (apply_length l P); lia.
Qed.

(** One long request makes the buffer as large as the request; it stays so large although the request is answered and
    the batch empty again. *)
Lemma growIfLow_some b : Inv b -> 1 <= Remaining (growIfLow b).
Proof.
  intros I. unfold growIfLow, maxReadSize. destruct (Z.ltb_spec (Remaining b) 65536) as [H|H]; [|lia].
  pose proof (grow_more b I) as G. unfold Remaining. rewrite grow_Size by exact I. destruct I as (I1 & I2 & I3). lia.
Qed.

Lemma read_slowly : forall body b tot now, Inv b -> body <> [] ->
  exists b' , ReadFrom_loop b body (repeat (1%nat, ENone) (length body) ++ [(1%nat, EEOF)]) tot now = Some (b', tot ++ body, [], ENone).
Proof.
  induction body as [|x body IH]; intros b tot now I N; [congruence|]. cbn [length repeat app ReadFrom_loop].
  pose proof (growIfLow_some b I) as R. destruct (growIfLow_same b I) as (I1 & _). set (b1 := growIfLow b) in *.
  replace (Nat.min 1 (Z.to_nat (Remaining b1))) with 1%nat by lia. cbn [firstn skipn].
  assert (I2 : Inv (extend b1 [x])) by (apply extend_Inv; [exact I1|cbn [length]; lia]).
  destruct body as [|y body].
  - cbn [length repeat app ReadFrom_loop].
    pose proof (growIfLow_some (extend b1 [x]) I2) as R2. set (b2 := growIfLow (extend b1 [x])) in *.
    replace (Nat.min 1 (Z.to_nat (Remaining b2))) with 1%nat by lia. cbn [firstn skipn]. eexists. rewrite app_nil_r. reflexivity.
  - destruct (IH (extend b1 [x]) (tot ++ [x]) now I2 ltac:(discriminate)) as (b' & E). exists b'. rewrite E. rewrite <- app_assoc. reflexivity.
Qed.

Lemma http_unbounded pf c t0 K : 0 <= lc_max_size c -> exists q t, forall more,
  let run labs := hrun pf c (hinit c t0 [q]) labs in
  let labs := [(LReq 0, t); (LReq 0, t); (LAge, t + Z.max 0 (lc_max_age c))] in
  h_reqs (run labs) = [RDone true] /\ Size (ls_batch (h_l (run labs))) = 0 /\
  let b := ls_batch (h_l (run (labs ++ more))) in K <= Size b + Remaining b.
Proof.
  intros Hm. set (body := repeat "a"%char (S (Z.to_nat K))).
  assert (Nb : body <> []) by discriminate.
  set (q := mkReq [] body (repeat (1%nat, ENone) (length body) ++ [(1%nat, EEOF)]) false false). exists q, t0. intros more. cbv zeta.
  set (labs := [(LReq 0, t0); (LReq 0, t0); (LAge, t0 + Z.max 0 (lc_max_age c))]).
  assert (Hs : start_req q = RNanos body (q_sched q)) by reflexivity.
  destruct (read_slowly body (New (lc_max_size c) t0) [] t0 (Inv_New _ _ Hm) Nb) as (b' & Rd). cbn [app] in Rd.
  pose proof (ReadFrom_bound _ _ _ _ _ _ _ _ _ (Inv_New _ _ Hm) Rd) as (I' & _ & Sz & _ & _).
  assert (Lb : length body = S (Z.to_nat K)) by (subst body; apply repeat_length).
  assert (Sz' : Size b' = Z.of_nat (length body)) by (unfold New in Sz; unfold Size at 2 in Sz; cbn [b_buf length] in Sz; lia).
  assert (H1 : hrun pf c (hinit c t0 [q]) [(LReq 0, t0)] = mkH (inc_received (set_batch (newListener c t0) b')) [RMaybe false] [(0%nat, body)] (t0 + lc_max_age c)).
  { cbn [hrun fold_left hstep fst snd]. unfold req_step, hinit. cbn [map h_reqs nth_error]. rewrite Hs. cbn [h_l newListener ls_batch q_sched q].
    unfold ReadFrom. subst q. cbn [q_sched]. rewrite Rd. destruct body as [|x body']; [congruence|]. reflexivity. }
  set (h1 := mkH _ _ _ _) in H1.
  set (l2 := maybeSendBatch pf c (h_l h1) t0 t0).
  assert (H2 : hrun pf c (hinit c t0 [q]) [(LReq 0, t0); (LReq 0, t0)] = mkH (inc_read_errors l2 false) [RDone true] [(0%nat, body)] (t0 + lc_max_age c)).
  { change [(LReq 0, t0); (LReq 0, t0)] with ([(LReq 0, t0)] ++ [(LReq 0, t0)]). rewrite hrun_app, H1. reflexivity. }
  assert (H3 : hrun pf c (hinit c t0 [q]) labs = age_step pf c (mkH (inc_read_errors l2 false) [RDone true] [(0%nat, body)] (t0 + lc_max_age c)) (t0 + Z.max 0 (lc_max_age c))).
  { change labs with ([(LReq 0, t0); (LReq 0, t0)] ++ [(LAge, t0 + Z.max 0 (lc_max_age c))]). rewrite hrun_app, H2. reflexivity. }
  split; [rewrite H3; reflexivity|].
  assert (Cr : b_created b' = t0 /\ 0 < b_writes b').
  { destruct (ReadFrom_correct _ _ _ _ _ _ _ _ _ (New_rep (lc_max_size c) t0 Hm) Rd) as (_ & (_ & _ & _ & A)).
    destruct body as [|x body']; [congruence|]. cbn [a_step a_empty a_first] in A. tauto. }
  split.
  - rewrite H3. unfold age_step. cbn [h_l inc_read_errors ls_batch].
    assert (Hl : ls_batch l2 = b' \/ ls_batch l2 = Reset b' t0).
    { subst l2 h1. unfold maybeSendBatch. cbn [h_l]. destruct (Listener.shouldSend _ _ _); [|left; reflexivity].
      rewrite sendBatch_batch. cbn [inc_received set_batch ls_batch]. destruct (_ <? _); auto. }
    set (t1 := t0 + Z.max 0 (lc_max_age c)). destruct Cr as (C1 & C2).
    destruct (Z.leb_spec (lc_max_age c) (Age (ls_batch l2) t1)) as [A|A].
    + rewrite sendBatch_batch. change (ls_batch (inc_read_errors l2 false)) with (ls_batch l2). destruct (Z.ltb_spec (Size (ls_batch l2)) 1) as [L|L]; [unfold Size in *; lia|reflexivity].
    + change (ls_batch (inc_read_errors l2 false)) with (ls_batch l2). destruct Hl as [E|E]; rewrite E in *; [|reflexivity]. exfalso. unfold Age in A.
      replace (b_writes b' <=? 0) with false in A by lia. subst t1. lia.
  - pose proof (http_never_shrinks pf c t0 [q] [(LReq 0, t0)] ([(LReq 0, t0); (LAge, t0 + Z.max 0 (lc_max_age c))] ++ more) Hm) as NS. cbv zeta in NS.
    change ([(LReq 0, t0)] ++ [(LReq 0, t0); (LAge, t0 + Z.max 0 (lc_max_age c))] ++ more) with (labs ++ more) in NS.
    rewrite H1 in NS. cbn [h1 h_l inc_received set_batch ls_batch] in NS. destruct I' as (_ & I2 & _). unfold Remaining in *. lia.
Qed.

(* ------------------------------------------------------------------ *)
(** * The writer *)

Lemma batchAppend_mem rs b d t : Inv b ->
  Inv (batchAppend rs b d t) /\ Size b <= Size (batchAppend rs b d t) <= Size b + Z.of_nat (length d) /\
  b_cap b <= b_cap (batchAppend rs b d t) <= Z.max (b_cap b) (2 * Size (batchAppend rs b d t) + 65536).
Proof.
  intros I. unfold batchAppend. destruct rs as [|r rs].
  - pose proof (Append_bound b d t I). pose proof (Append_size b d t I). pose proof (Append_cap_le b d t I).
    split; [apply Append_Inv; exact I|]. lia.
  - assert (L : (length (concat (Writer.SplitAfter d)) <= length d)%nat).
    { clear. induction d as [|x d IH]; [cbn; lia|]. cbn [Writer.SplitAfter]. destruct (Ascii.eqb x nl); [cbn [concat app length] in *; lia|].
      destruct (Writer.SplitAfter d) as [|l ls]; cbn [concat app length] in *; rewrite ?app_length in *; cbn [length] in *; lia. }
    cut (Inv (fold_left (fun b line => if filterLine (r :: rs) line then Append b line t else b) (Writer.SplitAfter d) b) /\
         Size b <= Size (fold_left (fun b line => if filterLine (r :: rs) line then Append b line t else b) (Writer.SplitAfter d) b) <= Size b + Z.of_nat (length (concat (Writer.SplitAfter d))) /\
         b_cap b <= b_cap (fold_left (fun b line => if filterLine (r :: rs) line then Append b line t else b) (Writer.SplitAfter d) b) <=
         Z.max (b_cap b) (2 * Size (fold_left (fun b line => if filterLine (r :: rs) line then Append b line t else b) (Writer.SplitAfter d) b) + 65536)).
    { intros (A & B & C). split; [exact A|]. lia. }
    clear L. revert b I. induction (Writer.SplitAfter d) as [|l ls IH]; intros b I; cbn [fold_left concat]; [cbn [length]; split; [exact I|]; lia|].
    rewrite app_length. destruct (filterLine (r :: rs) l).
    + pose proof (Append_bound b l t I). pose proof (Append_size b l t I). pose proof (Append_cap_le b l t I).
      destruct (IH (Append b l t) (Append_Inv b l t I)) as (A & B & C). split; [exact A|]. lia.
    + destruct (IH b I) as (A & B & C). split; [exact A|]. lia.
Qed.

Definition small (c : wcfg) (x : bytes) : Prop := (length x <= wc_size c + 1)%nat.

Definition writer_mem (c : wcfg) (L cap : Z) (s : wst) : Prop :=
  Inv (w_batch s) /\
  match w_pc s with WIdle => Size (w_batch s) < Z.of_nat (wc_size c) | _ => True end /\
  Size (w_batch s) <= Z.of_nat (wc_size c) + L /\
  cap <= b_cap (w_batch s) <= Z.max cap (2 * (Z.of_nat (wc_size c) + L) + 65536) /\
  match w_pc s with WSend rest | WHand _ rest => Forall (small c) rest | _ => True end /\
  Forall (small c) (waiting s).

Section WriterMem.
  Variable c : wcfg.
  Hypothesis Hsize : (1 <= wc_size c)%nat.
  Variables L cap : Z.
  Hypothesis HL : 0 <= L.

  Lemma continue_mem s rest t : Inv (w_batch s) -> Size (w_batch s) <= Z.of_nat (wc_size c) + L ->
    cap <= b_cap (w_batch s) <= Z.max cap (2 * (Z.of_nat (wc_size c) + L) + 65536) -> Forall (small c) rest ->
    Forall (small c) (map (fun x => snd (rb_buf x)) (r_q (w_retry s))) -> match w_chan s with Some a => small c (snd a) | None => True end ->
    writer_mem c L cap (continue s rest t).
  Proof.
    intros I S1 C1 F Q Ch. unfold writer_mem, waiting, passing, continue. destruct rest as [|x rest]; cbn [w_batch w_pc w_chan w_retry].
    - split; [apply Reset_Inv; exact I|]. unfold Reset, Size. cbn [b_buf b_cap length]. split; [lia|]. split; [lia|]. split; [exact C1|].
      split; [exact Logic.I|]. rewrite app_nil_r. apply Forall_app. split; [exact Q|]. destruct (w_chan s); cbn [map]; [constructor; [exact Ch|constructor]|constructor].
    - split; [exact I|]. split; [exact Logic.I|]. split; [exact S1|]. split; [exact C1|]. split; [exact F|].
      rewrite app_nil_r. apply Forall_app. split; [exact Q|]. destruct (w_chan s); cbn [map]; [constructor; [exact Ch|constructor]|constructor].
  Qed.

  Lemma split_small b : Forall (small c) (split_all (wc_size c) b).
  Proof. eapply Forall_impl; [|apply split_all_size; exact Hsize]. unfold small. intros x [H|[H _]]; lia. Qed.

  Lemma check_mem s t s' o : Inv (w_batch s) -> w_pc s = Writer.WIdle -> Size (w_batch s) < Z.of_nat (wc_size c) + L + 1 ->
    cap <= b_cap (w_batch s) <= Z.max cap (2 * (Z.of_nat (wc_size c) + L) + 65536) ->
    Forall (small c) (waiting s) -> check c s t = (s', o) -> writer_mem c L cap s'.
  Proof.
    intros I P S1 C1 F E. unfold check in E. destruct (Writer.shouldSend c (w_batch s) t) eqn:Es; injection E as <- _.
    - unfold waiting, passing in F. rewrite P, app_nil_r in F. apply Forall_app in F. destruct F as (F1 & F2).
      apply continue_mem; cbn [w_batch w_retry w_chan]; auto; [lia|apply split_small|]. destruct (w_chan s); cbn [map] in F2; [inversion F2; assumption|exact Logic.I].
    - unfold writer_mem. rewrite P. split; [exact I|]. unfold Writer.shouldSend in Es. destruct (Z.leb_spec (Z.of_nat (wc_size c)) (Size (w_batch s))); [rewrite orb_true_r in Es; discriminate|].
      split; [lia|]. split; [lia|]. split; [exact C1|]. split; [exact Logic.I|exact F].
  Qed.

  Lemma qAdd_small q now (a : chunk) q' ev : qAdd (wc_retry c) (wc_ttl c) q now a = (q', ev) ->
    Forall (small c) (map (fun x => snd (rb_buf x)) q) -> small c (snd a) -> Forall (small c) (map (fun x => snd (rb_buf x)) q').
  Proof.
    intros E F A. unfold qAdd in E.
    assert (G : forall q1, incl q1 q -> Forall (small c) (map (fun x => snd (rb_buf x)) (q1 ++ [mkRB a (now + wc_ttl c)]))).
    { intros q1 J. rewrite map_app. apply Forall_app. split; [|constructor; [exact A|constructor]].
      apply Forall_forall. intros x Hx. apply in_map_iff in Hx. destruct Hx as (y & <- & Hy). rewrite Forall_forall in F. apply F. apply in_map_iff. exists y. auto. }
    destruct (wc_retry c <=? _).
    - unfold removeOldest in E. destruct (oldest q 0 None) as [[i m]|]; injection E as <- _; apply G.
      + intros x Hx. apply in_app_or in Hx. destruct Hx as [Hx|Hx]; [rewrite <- (firstn_skipn i q); apply in_or_app; left; exact Hx|].
        rewrite <- (firstn_skipn (S i) q). apply in_or_app. right. exact Hx.
      + apply incl_refl.
    - injection E as <- _. apply G. apply incl_refl.
  Qed.

  Lemma qFront_incl : forall q now q' (ex : list chunk) f, qFront q now = (q', ex, f) -> incl q' q.
  Proof.
    induction q as [|b q IH]; intros now q' ex f E; cbn [qFront] in E; [injection E as <- _ _; apply incl_refl|].
    destruct (rb_ttl b <? now); [|injection E as <- _ _; apply incl_refl].
    destruct (qFront q now) as [[q1 ex1] f1] eqn:E1. injection E as <- _ _. apply incl_tl. exact (IH _ _ _ _ E1).
  Qed.

  Lemma map_incl (q q' : list (retryBatch chunk)) : incl q' q -> Forall (small c) (map (fun x => snd (rb_buf x)) q) -> Forall (small c) (map (fun x => snd (rb_buf x)) q').
  Proof.
    intros J F. apply Forall_forall. intros x Hx. apply in_map_iff in Hx. destruct Hx as (y & <- & Hy). rewrite Forall_forall in F. apply F. apply in_map_iff. exists y. auto.
  Qed.

  Lemma retry_small r l r' o : retry_step c r l = Some (r', o) -> Forall (small c) (map (fun x => snd (rb_buf x)) (r_q r)) ->
    (forall t t' a, l = LIn t t' a -> small c (snd a)) -> Forall (small c) (map (fun x => snd (rb_buf x)) (r_q r')).
  Proof.
    unfold retry_step, rstep. intros H F A. destruct l as [t t' a|t t'|t' oc|]; destruct (r_ph r); try discriminate.
    - destruct (_ && _); [|discriminate]. destruct (qAdd _ _ _ _ _) as [q ev] eqn:E. injection H as <- _. cbn [r_q]. eapply qAdd_small; eauto.
    - destruct (r_next r); [|discriminate]. destruct (_ && _); [|discriminate]. destruct (qFront _ _) as [[q ex] [f|]] eqn:E; injection H as <- _; cbn [r_q];
      eapply map_incl; try eassumption; eapply qFront_incl; eassumption.
    - destruct (_ <=? _); [|discriminate]. injection H as <- _. cbn [r_q]. apply map_incl with (r_q r); [|exact F].
      destruct (r_q r) as [|b q]; [destruct oc; apply incl_refl|]. destruct oc; cbn [qDropFront qCycleFront].
      + apply incl_tl, incl_refl.
      + apply incl_tl, incl_refl.
      + intros x Hx. apply in_app_or in Hx. destruct Hx as [Hx|[<-|[]]]; [right; exact Hx|left; reflexivity].
    - injection H as <- _. exact F.
  Qed.

  Lemma writer_mem_step s l s' o : writer_mem c L cap s -> wstep c s l = Some (s', o) ->
    (forall t t' d, l = PMsg t t' d -> Z.of_nat (length d) <= L) -> writer_mem c L cap s'.
  Proof.
    intros (I & Id & S1 & C1 & Fr & Fw) E Hd.
    assert (Fq : Forall (small c) (map (fun x => snd (rb_buf x)) (r_q (w_retry s)))) by (unfold waiting in Fw; apply Forall_app in Fw; tauto).
    assert (Fc : match w_chan s with Some a => small c (snd a) | None => True end).
    { unfold waiting, passing in Fw. destruct (w_chan s); [|exact Logic.I]. rewrite !Forall_app, map_app, Forall_app in Fw. destruct Fw as (_ & Fw & _). inversion Fw; assumption. }
    unfold wstep in E. destruct l as [t t' d|t'|t'|t'|r t|t| | | |t t'|l'].
    - destruct (w_pc s) eqn:P; try discriminate.
      destruct (check c _ t') as [s1 o1] eqn:Ec. injection E as <- _. specialize (Hd t t' d eq_refl).
      destruct (batchAppend_mem (wc_rules c) (w_batch s) d t I) as (A1 & A2 & A3).
      apply check_mem in Ec; cbn [w_batch w_pc]; auto; try lia. unfold waiting, passing in *. rewrite P in Fw. exact Fw.
    - destruct (w_pc s) eqn:P; try discriminate. destruct (0 <? _); [|discriminate]. destruct (check c _ t') as [s1 o1] eqn:Ec. injection E as <- _.
      apply check_mem in Ec; cbn [w_batch w_pc]; auto; [lia|]. unfold waiting, passing in *. rewrite P in Fw. exact Fw.
    - destruct (w_pc s) eqn:P; try discriminate. destruct (0 <? _); [|discriminate]. destruct (check c _ t') as [s1 o1] eqn:Ec. injection E as <- _.
      apply check_mem in Ec; cbn [w_batch w_pc]; auto; [lia|]. unfold waiting, passing in *. rewrite P in Fw. exact Fw.
    - destruct (w_pc s) eqn:P; try discriminate. destruct (check c s t') as [s1 o1] eqn:Ec. injection E as <- _. apply check_mem in Ec; auto. lia.
    - destruct (w_pc s) as [|[|ch rest]|a rest| |] eqn:P; try discriminate. inversion Fr; subst.
      destruct (_ || _); injection E as <- _.
      + apply continue_mem; cbn [w_batch w_retry w_chan]; auto.
      + split; [exact I|]. cbn [w_batch w_pc]. split; [exact Logic.I|]. split; [exact S1|]. split; [exact C1|]. split; [assumption|].
        unfold waiting, passing in *. cbn [w_pc w_chan w_retry]. rewrite map_app, !Forall_app. split; [exact Fq|]. split.
        * destruct (w_chan s); cbn [map]; [constructor; [exact Fc|constructor]|constructor].
        * cbn [map snd]. constructor; [assumption|constructor].
    - destruct (w_pc s) as [| |a rest| |] eqn:P; try discriminate. destruct (w_chan s) eqn:Ec; [discriminate|]. injection E as <- _.
      apply continue_mem; cbn [set_retry w_batch w_retry w_chan]; auto.
      unfold waiting, passing in Fw. rewrite Ec, P in Fw. apply Forall_app in Fw. destruct Fw as (_ & Fw). cbn [app map] in Fw. inversion Fw; assumption.
    - injection E as <- _. unfold writer_mem, waiting, passing. cbn [w_batch w_pc w_chan w_retry].
      split; [exact I|]. split; [exact Id|]. split; [exact S1|]. split; [exact C1|]. split; [exact Fr|exact Fw].
    - destruct (w_pc s) eqn:P; try discriminate. destruct (w_closed s); [|discriminate]. injection E as <- _.
      unfold writer_mem, waiting, passing in *. cbn [w_batch w_pc w_chan w_retry]. rewrite P in Fw.
      split; [exact I|]. destruct (0 <? wc_retry c); (split; [exact Logic.I|]; split; [exact S1|]; split; [exact C1|]; split; [exact Logic.I|exact Fw]).
    - destruct (w_pc s) eqn:P; try discriminate. destruct (r_ph (w_retry s)); try discriminate. injection E as <- _.
      unfold writer_mem, waiting, passing in *. cbn [w_batch w_pc w_chan w_retry]. rewrite P in Fw.
      split; [exact I|]. split; [exact Logic.I|]. split; [exact S1|]. split; [exact C1|]. split; [exact Logic.I|exact Fw].
    - destruct (0 <? wc_retry c); [|destruct (w_pc s); discriminate].
      assert (E' : match w_chan s with None => None | Some a => match retry_step c (w_retry s) (LIn t t' a) with None => None | Some (r, o) => Some (set_retry s None r, map VRetry o) end end = Some (s', o)) by (destruct (w_pc s); exact E).
      clear E. destruct (w_chan s) as [a|] eqn:Ec; [|discriminate]. destruct (retry_step c (w_retry s) (LIn t t' a)) as [[r o1]|] eqn:Er; [|discriminate]. injection E' as <- _.
      unfold writer_mem, waiting, passing in *. cbn [set_retry w_batch w_pc w_chan w_retry]. split; [exact I|]. split; [exact Id|]. split; [exact S1|]. split; [exact C1|]. split; [exact Fr|].
      rewrite Ec, map_app, !Forall_app in Fw. apply Forall_app. split; [|cbn [app]; tauto].
      eapply retry_small; eauto. intros x y z Q. injection Q as <- <- <-. exact Fc.
    - assert (E' : match retry_step c (w_retry s) l' with None => None | Some (r, o) => Some (set_retry s (w_chan s) r, map VRetry o) end = Some (s', o) /\ is_in l' = false).
      { destruct (w_pc s); (destruct (_ && _) eqn:Q in E; [|discriminate]; split; [exact E|]; destruct (is_in l'); [rewrite andb_false_r in Q; discriminate|reflexivity]). }
      clear E. destruct E' as (E & Ni). destruct (retry_step c (w_retry s) l') as [[r o1]|] eqn:Er; [|discriminate]. injection E as <- _.
      unfold writer_mem, waiting, passing in *. cbn [set_retry w_batch w_pc w_chan w_retry]. split; [exact I|]. split; [exact Id|]. split; [exact S1|]. split; [exact C1|]. split; [exact Fr|].
      apply Forall_app. apply Forall_app in Fw. split; [|tauto]. eapply retry_small; eauto. intros x y z ->. discriminate.
  Qed.
End WriterMem.

Lemma total_small c l : Forall (small c) l -> (length (concat l) <= length l * (wc_size c + 1))%nat.
Proof. induction 1 as [|x l H F IH]; cbn [concat length]; [lia|]. rewrite app_length. unfold small in H. lia. Qed.

Lemma passing_le s : (length (passing s) <= 2)%nat.
Proof. unfold passing. rewrite app_length. destruct (w_chan s), (w_pc s); cbn; lia. Qed.

(** One worker with its retry goroutine. *)
Lemma worker_memory c cap now ls s tr L : (1 <= wc_size c)%nat -> 0 <= cap -> 0 <= wc_retry c -> 0 <= L ->
  Forall (fun m => Z.of_nat (length (snd m)) <= L) (messages tr) -> wrun c (newWorker cap now) ls = Some (s, tr) ->
  Size (w_batch s) + Remaining (w_batch s) <= Z.max cap (2 * (Z.of_nat (wc_size c) + L) + 65536) /\
  Forall (fun x => (length x <= wc_size c + 1)%nat) (waiting s) /\
  Z.of_nat (length (waiting s)) <= wc_retry c + 2 /\
  Z.of_nat (length (concat (waiting s))) <= (wc_retry c + 2) * (Z.of_nat (wc_size c) + 1).
Proof.
  intros Hs Hc Hr HL F R.
  assert (M : writer_mem c L cap s).
  { assert (G : forall ls s0 s tr, writer_mem c L cap s0 -> wrun c s0 ls = Some (s, tr) -> Forall (fun m => Z.of_nat (length (snd m)) <= L) (messages tr) -> writer_mem c L cap s).
    { clear s tr ls F R. induction ls as [|l ls IH]; intros s0 s tr M R F; cbn [wrun] in R; [injection R as <- _; exact M|].
      destruct (wstep c s0 l) as [[s1 o1]|] eqn:E1; [|discriminate]. destruct (wrun c s1 ls) as [[s2 o2]|] eqn:E2; [|discriminate]. injection R as <- <-.
      rewrite messages_app, Forall_app in F. destruct F as (F1 & F2).
      apply (IH s1 s2 o2); [|exact E2|exact F2]. eapply writer_mem_step; eauto. intros t t' d ->.
      pose proof (messages_step _ _ _ _ _ E1) as Em. cbn beta iota in Em. destruct (messages o1) as [|x [|y z]]; try discriminate.
      injection Em as <-. inversion F1; assumption. }
    apply (G ls (newWorker cap now) s tr); [|exact R|exact F].
    unfold writer_mem, newWorker, waiting, passing. cbn [w_batch w_pc w_chan w_retry r_q newRetry map app].
    split; [apply Inv_New; exact Hc|]. change (Size (New cap now)) with 0. change (b_cap (New cap now)) with cap.
    split; [lia|]. split; [lia|]. split; [lia|]. split; [exact Logic.I|constructor]. }
  destruct M as (_ & _ & _ & C1 & _ & W). split; [unfold Remaining; lia|]. split; [exact W|].
  assert (N : Z.of_nat (length (waiting s)) <= wc_retry c + 2).
  { unfold waiting. rewrite app_length, !map_length. pose proof (pair_bounded c Hs cap now ls s tr Hc Hr R) as Q1. pose proof (passing_le s) as Q2.
    rewrite Nat2Z.inj_add. apply Z.add_le_mono; [exact Q1|]. apply inj_le in Q2. exact Q2. }
  split; [exact N|]. pose proof (total_small c _ W). nia.
Qed.

(** The whole writer: its worker pool, the jobs channel and the subscriptions' pending messages. *)
Lemma pool_memory c limits n cap now ls s tr L : (1 <= wc_size c)%nat -> 0 <= cap -> 0 <= wc_retry c -> 0 <= L ->
  Forall (fun m => Z.of_nat (length m) <= L) (kept_all tr) -> prun c (startWriter limits n cap now) ls = Some (s, tr) ->
  Forall (fun st => Size (w_batch st) + Remaining (w_batch st) + Z.of_nat (length (concat (waiting st))) <=
    Z.max cap (2 * (Z.of_nat (wc_size c) + L) + 65536) + (wc_retry c + 2) * (Z.of_nat (wc_size c) + 1)) (p_ws s) /\
  length (p_ws s) = n /\
  Z.of_nat (length (concat (p_jobs s))) <= 1024 * L /\
  Forall (fun su => 0 < su_limit su -> Z.of_nat (length (concat (backlog su))) <= su_limit su) (p_subs s).
Proof.
  intros Hs Hc Hr HL F R. destruct (pool_conserves _ _ _ _ _ _ _ _ R) as (P & J & N). split; [|split; [exact N|split]].
  - apply Forall_forall. intros st Hin. apply In_nth_error in Hin. destruct Hin as (w & Ew).
    destruct (pool_worker _ _ _ _ _ _ _ _ _ _ R Ew) as (ls' & R').
    assert (Fm : Forall (fun m => Z.of_nat (length (snd m)) <= L) (messages (wtrace w tr))).
    { apply Forall_forall. intros m Hm. rewrite Forall_forall in F. apply F. eapply Permutation_in; [symmetry; exact P|]. apply in_or_app. left.
      apply in_flat_map. exists w. split; [|apply in_map; exact Hm]. apply in_seq. split; [lia|]. rewrite <- N. cbn. apply nth_error_Some. congruence. }
    destruct (worker_memory c cap now ls' st _ L Hs Hc Hr HL Fm R') as (A & _ & _ & D). lia.
  - assert (Fj : Forall (fun m => Z.of_nat (length m) <= L) (p_jobs s)).
    { apply Forall_forall. intros m Hm. rewrite Forall_forall in F. apply F. eapply Permutation_in; [symmetry; exact P|]. apply in_or_app. right. apply in_or_app. left. exact Hm. }
    assert (T : Z.of_nat (length (concat (p_jobs s))) <= Z.of_nat (length (p_jobs s)) * L).
    { clear -Fj HL. induction Fj as [|m l H F IH]; cbn [concat length]; [lia|]. rewrite app_length. lia. }
    nia.
  - apply Forall_forall. intros su Hin. apply In_nth_error in Hin. destruct Hin as (i & Ei).
    destruct (pool_sub _ _ _ _ _ _ _ _ _ _ R Ei) as (_ & _ & _ & _ & B). exact B.
Qed.
