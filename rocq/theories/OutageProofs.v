(** Proofs for C117: outages of the NATS server. *)
From Verif Require Import Base Text Convert Outage.
Local Open Scope Z_scope.

Lemma part_refl {A} (l : list A) : part_of l l.
Proof. induction l; [constructor|apply po_keep; assumption]. Qed.
Lemma part_nil {A} (l : list A) : part_of [] l.
Proof. induction l; [constructor|apply po_skip; assumption]. Qed.
Lemma part_app {A} (a b c d : list A) : part_of a b -> part_of c d -> part_of (a ++ c) (b ++ d).
Proof. induction 1; intros P; cbn [app]; [exact P|apply po_keep; auto|apply po_skip; auto]. Qed.
Lemma part_trans {A} (a b c : list A) : part_of a b -> part_of b c -> part_of a c.
Proof.
  intros P Q. revert a P. induction Q as [|x b c Q IH|x b c Q IH]; intros a P.
  - exact P.
  - inversion P; subst; [apply po_keep; auto|apply po_skip; auto].
  - apply po_skip. auto.
Qed.
Lemma part_drop {A} (a b c : list A) : part_of (a ++ c) (a ++ b ++ c).
Proof. apply part_app; [apply part_refl|]. exact (part_app [] b c c (part_nil b) (part_refl c)). Qed.

Section Outage.
  Variable subject : bytes.
  Notation mine := (mine subject).
  Notation step := (ostep subject).
  Notation run := (orun subject).
  Notation pubs := (published subject).
  Notation refs := (refused subject).
  Notation way := (under_way subject).

  Lemma pubs_app a b : pubs (a ++ b) = pubs a ++ pubs b.
  Proof. unfold published. rewrite map_app, concat_app, filter_app. reflexivity. Qed.
  Lemma refs_app a b : refs (a ++ b) = refs a ++ refs b.
  Proof. unfold refused. rewrite map_app, concat_app, filter_app. reflexivity. Qed.
  Lemma received_app a b : received (a ++ b) = received a ++ received b.
  Proof. unfold received. rewrite map_app, concat_app. reflexivity. Qed.
  Lemma lost_app a b : lost (a ++ b) = lost a ++ lost b.
  Proof. unfold lost. rewrite map_app, concat_app. reflexivity. Qed.
  Lemma unheard_app a b : unheard (a ++ b) = unheard a ++ unheard b.
  Proof. unfold unheard. rewrite map_app, concat_app. reflexivity. Qed.
  Lemma lost_map l : lost (map OLost l) = l /\ pubs (map OLost l) = [] /\ refs (map OLost l) = [] /\ received (map OLost l) = [] /\ unheard (map OLost l) = [].
  Proof.
    unfold lost, published, refused, received, unheard. rewrite !map_map. induction l as [|m l (A & B & C & D & E)]; [repeat split|].
    cbn [map concat app]. rewrite ?A, ?B, ?C, ?D, ?E. repeat split.
  Qed.
  Lemma unheard_map l : unheard (map OUnheard l) = l /\ pubs (map OUnheard l) = [] /\ refs (map OUnheard l) = [] /\ received (map OUnheard l) = [] /\ lost (map OUnheard l) = [].
  Proof.
    unfold lost, published, refused, received, unheard. rewrite !map_map. induction l as [|m l (A & B & C & D & E)]; [repeat split|].
    cbn [map concat app]. rewrite ?A, ?B, ?C, ?D, ?E. repeat split.
  Qed.

  (** A client which is not connected has nothing on the wire, one which is has nothing kept. *)
  Definition inv (s : ost) : Prop := if up s then pend s = [] else wire s = [] /\ linked s = false.
  Definition whole (l : olabel) : Prop := match l with PubBackFails _ => False | _ => True end.
  Ltac cases s := destruct s as [u p w lk sv sb d]; cbn [up pend wire linked srv subs down] in *.

  Lemma step_inv s l s' o : inv s -> step s l = Some (s', o) -> inv s'.
  Proof.
    unfold inv. cases s. intros I E. destruct l as [m broken| | | | | | | | |n| |]; cbn [ostep up pend wire linked srv subs down] in E.
    - destruct u; [destruct broken; [destruct lk; [discriminate E|]|]|destruct (reconnectBuf <=? plen p)]; inversion E; subst; cbn; auto.
    - destruct w as [|m w]; [discriminate E|]. destruct (lk && sv) eqn:B; [|discriminate E]. apply andb_true_iff in B. destruct B as [-> ->].
      destruct (route subject sb [m]) as [d1 o1]. inversion E; subst. cbn. destruct u; [exact I|destruct I; discriminate].
    - destruct d; [discriminate E|]. inversion E; subst. cbn. exact I.
    - destruct sv; [|discriminate E]. inversion E; subst. cbn. destruct u; [exact I|]. split; [apply I|reflexivity].
    - destruct sv; [discriminate E|]. inversion E; subst. cbn. exact I.
    - inversion E; subst. cbn. destruct u; [exact I|]. split; [apply I|reflexivity].
    - inversion E; subst. cbn. exact I.
    - destruct (u && negb lk); [|discriminate E]. inversion E; subst. cbn. auto.
    - destruct (negb u && sv); [|discriminate E]. inversion E; subst. cbn. reflexivity.
    - destruct (negb u && sv); [|discriminate E]. destruct (route subject sb (firstn n p)) as [d1 o1]. inversion E; subst. cbn. auto.
    - destruct sv; [|discriminate E]. inversion E; subst. cbn. exact I.
    - inversion E; subst. cbn. destruct u; auto.
  Qed.

  Lemma step_account s l s' o : inv s -> whole l -> step s l = Some (s', o) ->
    Permutation (way s ++ pubs o) (received o ++ refs o ++ lost o ++ unheard o ++ way s') /\
    part_of (received o ++ way s') (way s ++ pubs o) /\
    (gentle s l -> received o ++ way s' = way s ++ pubs o /\ refs o = [] /\ lost o = [] /\ unheard o = [] /\ Forall (fun x => match x with OPub _ b => b = true | _ => True end) o).
  Proof.
    unfold inv, under_way. cases s. intros I W E. destruct l as [m broken| | | | | | | | |n| |]; cbn [ostep up pend wire linked srv subs down] in E; [..|].
    - destruct u.
      + destruct broken.
        * destruct lk; [discriminate E|]. inversion E; subst. cbn [down wire pend]. unfold published, refused, received, lost, unheard. cbn [map concat app].
          split; [|split].
          { rewrite Permutation_app_comm. reflexivity. }
          { rewrite <- (app_nil_r (d ++ filter mine (w ++ []))) at 1. apply part_app; [apply part_refl|apply part_nil]. }
          { intros [X _]. discriminate X. }
        * subst p. inversion E; subst. cbn [down wire pend]. unfold published, refused, received, lost, unheard. cbn [map concat app filter].
          rewrite !app_nil_r. rewrite filter_app, <- app_assoc. cbn [filter]. split; [reflexivity|]. split; [apply part_refl|]. intros _. repeat split; auto.
      + destruct I as [-> ->]. destruct (reconnectBuf <=? plen p) eqn:B; inversion E; subst; cbn [down wire pend]; unfold published, refused, received, lost, unheard; cbn [map concat app].
        * split; [|split].
          { rewrite Permutation_app_comm. reflexivity. }
          { rewrite <- (app_nil_r (d ++ filter mine p)) at 1. apply part_app; [apply part_refl|apply part_nil]. }
          { cbn [gentle up pend]. intros X. apply Z.leb_le in B. lia. }
        * cbn [filter app]. rewrite filter_app, app_assoc. split; [reflexivity|]. split; [apply part_refl|]. intros _. repeat split; auto.
    - destruct w as [|m w]; [discriminate E|]. destruct (lk && sv) eqn:B; [|discriminate E]. destruct sb; unfold route in E; set (one := filter mine [m]) in E; cbv zeta iota in E; inversion E; subst s' o; clear E; cbn [down wire pend].
      + change ((m :: w) ++ p) with ([m] ++ (w ++ p)). rewrite (filter_app mine [m]). fold one. clearbody one.
        unfold published, refused, received, lost, unheard. cbn [map concat app filter]. rewrite !app_nil_r, app_assoc. split; [reflexivity|]. split; [apply part_refl|]. intros _. repeat split; auto.
      + destruct (unheard_map one) as (U1 & U2 & U3 & U4 & U5). rewrite U1, U2, U3, U4, U5. cbn [app]. rewrite !app_nil_r.
        change (m :: w ++ p) with ([m] ++ (w ++ p)). rewrite (filter_app mine [m]). fold one. split; [|split].
        * rewrite Permutation_app_swap_app. reflexivity.
        * apply part_drop.
        * cbn [gentle subs]. discriminate.
    - destruct d as [|m d]; [discriminate E|]. inversion E; subst. cbn [down wire pend]. unfold published, refused, received, lost, unheard. cbn [map concat app filter]. rewrite !app_nil_r.
      split; [reflexivity|]. split; [apply part_refl|]. intros _. repeat split; auto.
    - destruct sv; [|discriminate E]. inversion E; subst. cbn [down wire pend]. destruct (lost_map d) as (U1 & U2 & U3 & U4 & U5). rewrite U1, U2, U3, U4, U5. cbn [app]. rewrite !app_nil_r.
      split; [reflexivity|]. split; [exact (part_app [] d _ _ (part_nil d) (part_refl _))|]. cbn [gentle down wire]. intros [-> ->]. repeat split; auto. constructor.
    - destruct sv; [discriminate E|]. inversion E; subst. cbn [down wire pend]. unfold published, refused, received, lost, unheard. cbn [map concat app filter]. rewrite !app_nil_r.
      split; [reflexivity|]. split; [apply part_refl|]. intros _. repeat split; auto.
    - inversion E; subst. cbn [down wire pend]. unfold published, refused, received, lost, unheard. cbn [map concat app filter]. rewrite !app_nil_r.
      split; [reflexivity|]. split; [apply part_refl|]. intros _. repeat split; auto.
    - inversion E; subst. cbn [down wire pend]. destruct (lost_map d) as (U1 & U2 & U3 & U4 & U5). rewrite U1, U2, U3, U4, U5. cbn [app]. rewrite !app_nil_r.
      split; [reflexivity|]. split; [exact (part_app [] d _ _ (part_nil d) (part_refl _))|]. cbn [gentle down wire]. intros ->. repeat split; auto. constructor.
    - destruct (u && negb lk) eqn:B; [|discriminate E]. apply andb_true_iff in B. destruct B as [-> _]. subst p. inversion E; subst. cbn [down wire pend].
      destruct (lost_map (filter mine w)) as (U1 & U2 & U3 & U4 & U5). rewrite U1, U2, U3, U4, U5. cbn [app filter]. rewrite !app_nil_r. split; [|split].
      + apply Permutation_app_comm.
      + rewrite <- (app_nil_r d) at 1. apply part_app; [apply part_refl|apply part_nil].
      + cbn [gentle wire]. intros ->. cbn [map filter app]. rewrite app_nil_r. repeat split; auto.
    - destruct (negb u && sv) eqn:B; [|discriminate E]. apply andb_true_iff in B. destruct B as [B ->]. apply negb_true_iff in B. subst u. destruct I as [-> ->]. inversion E; subst. cbn [down wire pend].
      unfold published, refused, received, lost, unheard. cbn [map concat app filter]. rewrite !app_nil_r.
      split; [reflexivity|]. split; [apply part_refl|]. intros _. repeat split; auto.
    - destruct W.
    - destruct sv; [|discriminate E]. inversion E; subst. cbn [down wire pend]. unfold published, refused, received, lost, unheard. cbn [map concat app filter]. rewrite !app_nil_r.
      split; [reflexivity|]. split; [apply part_refl|]. intros _. repeat split; auto.
    - inversion E; subst. cbn [down wire pend]. destruct (lost_map (filter mine p)) as (U1 & U2 & U3 & U4 & U5). rewrite U1, U2, U3, U4, U5. cbn [app]. rewrite !app_nil_r, filter_app. split; [|split].
      + rewrite app_assoc. apply Permutation_app_comm.
      + apply part_app; [apply part_refl|]. rewrite <- (app_nil_r (filter mine w)) at 1. apply part_app; [apply part_refl|apply part_nil].
      + cbn [gentle pend]. intros ->. cbn [filter map]. rewrite app_nil_r. repeat split; auto.
  Qed.

  Lemma run_account ls : forall s s' o, inv s -> Forall whole ls -> run s ls = Some (s', o) ->
    Permutation (way s ++ pubs o) (received o ++ refs o ++ lost o ++ unheard o ++ way s') /\
    part_of (received o ++ way s') (way s ++ pubs o) /\
    (gentle_run subject s ls -> received o ++ way s' = way s ++ pubs o /\ refs o = [] /\ lost o = [] /\ unheard o = [] /\ Forall (fun x => match x with OPub _ b => b = true | _ => True end) o).
  Proof.
    induction ls as [|l ls IH]; intros s s' o I W E.
    - inversion E; subst. unfold published, refused, received, lost, unheard. cbn [map concat app filter]. rewrite !app_nil_r. split; [reflexivity|]. split; [apply part_refl|]. repeat split; auto.
    - cbn [orun] in E. destruct (step s l) as [[s1 o1]|] eqn:S; [|discriminate E]. destruct (run s1 ls) as [[s2 o2]|] eqn:R; [|discriminate E]. inversion E; subst.
      inversion W; subst. destruct (step_account s l s1 o1 I H1 S) as (P1 & Q1 & G1). destruct (IH s1 s' o2 (step_inv _ _ _ _ I S) H2 R) as (P2 & Q2 & G2).
      rewrite pubs_app, refs_app, received_app, lost_app, unheard_app. split; [|split].
      + rewrite app_assoc, P1. rewrite <- !app_assoc. apply Permutation_app_head.
        transitivity (refs o1 ++ lost o1 ++ unheard o1 ++ (received o2 ++ refs o2 ++ lost o2 ++ unheard o2 ++ way s')).
        { rewrite P2. reflexivity. }
        generalize (refs o1) (lost o1) (unheard o1) (received o2) (refs o2) (lost o2) (unheard o2) (way s'). clear. intros a b c d e f g h.
        rewrite (Permutation_app_swap_app c d), (Permutation_app_swap_app b d), (Permutation_app_swap_app a d). apply Permutation_app_head. apply Permutation_app_head.
        rewrite (Permutation_app_swap_app c e), (Permutation_app_swap_app b e). apply Permutation_app_head. apply Permutation_app_head.
        rewrite (Permutation_app_swap_app c f). reflexivity.
      + rewrite <- app_assoc. apply (part_trans _ (received o1 ++ way s1 ++ pubs o2)).
        * apply part_app; [apply part_refl|exact Q2].
        * rewrite !app_assoc. apply part_app; [exact Q1|apply part_refl].
      + cbn [gentle_run]. rewrite S. intros [H H']. destruct (G1 H) as (A1 & A2 & A3 & A4 & A5). destruct (G2 H') as (B1 & B2 & B3 & B4 & B5).
        rewrite A2, A3, A4, B2, B3, B4. split; [rewrite <- app_assoc, B1, app_assoc, A1, <- app_assoc; reflexivity|]. repeat split. apply Forall_app. auto.
  Qed.
  Lemma gentle_whole ls : forall s s' o, run s ls = Some (s', o) -> gentle_run subject s ls -> Forall whole ls.
  Proof.
    induction ls as [|l ls IH]; intros s s' o E G; [constructor|]. cbn [orun] in E. destruct (step s l) as [[s1 o1]|] eqn:S; [|discriminate E].
    destruct (run s1 ls) as [[s2 o2]|] eqn:R; [|discriminate E]. cbn [gentle_run] in G. rewrite S in G. destruct G as [G1 G2]. constructor; [|exact (IH s1 s2 o2 R G2)].
    destruct l; try exact Logic.I. destruct G1.
  Qed.

  (** The buffer. *)
  Lemma plen_sum l : plen l = fold_right Z.add 0 (map (fun m => Z.of_nat (length (fst m)) + Z.of_nat (length (snd m)) + Z.of_nat (length (FormatInt (Z.of_nat (length (snd m))))) + 9) l).
  Proof. induction l as [|m l IH]; [reflexivity|]. cbn [plen map fold_right]. rewrite IH. unfold frame. rewrite !app_length. change (length (lit "PUB ")) with 4%nat. change (length (lit " ")) with 1%nat. change (length crlf) with 2%nat. clear IH. rewrite !Nat2Z.inj_add. assert (G : forall x y z w, Z.of_nat 4 + (x + (Z.of_nat 1 + (y + (Z.of_nat 2 + (z + Z.of_nat 2))))) + w = x + z + y + 9 + w) by (intros; lia). apply G. Qed.
  Lemma plen_app a b : plen (a ++ b) = plen a + plen b.
  Proof. induction a as [|m a IH]; cbn [app plen]; [lia|]. rewrite IH. lia. Qed.
  Lemma plen_nonneg a : 0 <= plen a.
  Proof. induction a as [|m a IH]; cbn [plen]; lia. Qed.
  Lemma run_bound B ls : forall s s' o, 0 <= B -> plen (pend s) <= reconnectBuf + B ->
    Forall (fun l => match l with Pub m _ => Z.of_nat (length (frame m)) <= B | _ => True end) ls -> run s ls = Some (s', o) -> plen (pend s') <= reconnectBuf + B.
  Proof.
    induction ls as [|l ls IH]; intros s s' o B0 P F E; [inversion E; subst; exact P|]. cbn [orun] in E. destruct (step s l) as [[s1 o1]|] eqn:S; [|discriminate E].
    destruct (run s1 ls) as [[s2 o2]|] eqn:R; [|discriminate E]. inversion E; subst. inversion F; subst. refine (IH s1 s' o2 B0 _ H2 R). clear IH R F H2 E.
    cases s. destruct l as [m broken| | | | | | | | |n| |]; cbn [ostep up pend wire linked srv subs down] in S.
    - destruct u; [destruct broken; [destruct lk; [discriminate S|]|]|destruct (Z.leb_spec reconnectBuf (plen p))]; inversion S; subst; cbn [pend]; try assumption.
      rewrite plen_app. cbn [plen]. lia.
    - destruct w as [|m w]; [discriminate S|]. destruct (lk && sv); [|discriminate S]. destruct (route subject sb [m]). inversion S; subst. exact P.
    - destruct d; inversion S; subst; exact P.
    - destruct sv; inversion S; subst; exact P.
    - destruct sv; inversion S; subst; exact P.
    - inversion S; subst; exact P.
    - inversion S; subst; exact P.
    - destruct (u && negb lk); inversion S; subst. cbn [pend plen]. unfold reconnectBuf. lia.
    - destruct (negb u && sv); inversion S; subst. cbn [pend plen]. unfold reconnectBuf. lia.
    - destruct (negb u && sv); [|discriminate S]. destruct (route subject sb (firstn n p)). inversion S; subst. exact P.
    - destruct sv; inversion S; subst; exact P.
    - inversion S; subst. cbn [pend plen]. unfold reconnectBuf. lia.
  Qed.
End Outage.

(** ** How long a client tries *)
Lemma reconnect_forever attempts : forall pool n, pool <> [] ->
  doReconnect componentMax pool attempts n = match find (fun k => nth k attempts false) (seq 0 (length attempts)) with Some k => Connected (n + k) | None => Trying end.
Proof.
  induction attempts as [|ok r IH]; intros pool n P; [reflexivity|]. cbn [doReconnect]. destruct pool as [|s rest]; [congruence|].
  change ((componentMax <? 0) || (s <? componentMax)) with true. cbn [orb].
  destruct (rest ++ [s]) as [|c rest'] eqn:X; [destruct rest; discriminate X|]. cbn [length seq find nth]. destruct ok; [rewrite Nat.add_0_r; reflexivity|].
  rewrite IH by discriminate. rewrite <- seq_shift. clear. generalize (seq 0 (length r)). induction l as [|k l IH]; [reflexivity|].
  cbn [map find nth]. destruct (nth k r false); [f_equal; lia|exact IH].
Qed.
(** The attempts which are left to a pool. *)
Fixpoint left_to (max : Z) (pool : list Z) : Z := match pool with [] => 0 | c :: r => (max - c) + left_to max r end.
Lemma left_app max a b : left_to max (a ++ b) = left_to max a + left_to max b.
Proof. induction a as [|c a IH]; cbn [app left_to]; [lia|]. rewrite IH. lia. Qed.
Lemma left_pos max l : Forall (fun c => c < max) l -> 0 <= left_to max l.
Proof. induction 1; cbn [left_to]; lia. Qed.
Lemma limited_tries max attempts : 0 <= max -> forall s rest n, s <= max -> Forall (fun c => c < max) rest ->
  doReconnect max (s :: rest) attempts n = Closed <->
  (Z.of_nat (length attempts) > left_to max (s :: rest) /\ forall k, Z.of_nat k < left_to max (s :: rest) -> nth k attempts false = false).
Proof.
  intros M. induction attempts as [|ok r IH]; intros s rest n Hs Hr; cbn [doReconnect].
  - split; [discriminate|]. cbn [length]. pose proof (left_pos _ _ Hr). cbn [left_to]. lia.
  - destruct (Z.ltb_spec max 0) as [X|_]; [lia|]. cbn [orb].
    assert (Go : forall c rest', c < max -> Forall (fun x => x < max) rest' -> left_to max (c :: rest') = left_to max (s :: rest) ->
      (if ok then Connected n else doReconnect max (c + 1 :: rest') r (S n)) = Closed <->
      (Z.of_nat (length (ok :: r)) > left_to max (s :: rest) /\ forall k, Z.of_nat k < left_to max (s :: rest) -> nth k (ok :: r) false = false)).
    { intros c rest' Hc Hr' <-. pose proof (left_pos _ _ Hr'). destruct ok.
      - split; [discriminate|]. intros [_ H0]. specialize (H0 0%nat). cbn [nth left_to] in H0. assert (true = false) by (apply H0; lia). discriminate.
      - rewrite IH by (assumption || lia). cbn [length left_to]. split; intros [H1 H2]; (split; [lia|]); intros k K.
        + destruct k as [|k]; [reflexivity|]. cbn [nth]. apply H2. lia.
        + specialize (H2 (S k)). cbn [nth] in H2. apply H2. lia. }
    destruct (Z.ltb_spec s max) as [L|L].
    + destruct rest as [|c rest]; cbn [app].
      * apply Go; [exact L|constructor|reflexivity].
      * inversion Hr; subst. apply Go; [assumption|apply Forall_app; auto|]. cbn [left_to]. rewrite left_app. cbn [left_to]. lia.
    + assert (s = max) by lia. subst s. destruct rest as [|c rest].
      * split; [|reflexivity]. intros _. cbn [length left_to]. split; [lia|]. intros k K. lia.
      * inversion Hr; subst. apply Go; [assumption|assumption|]. cbn [left_to]. lia.
Qed.

(** ** What fits in the buffer *)
Lemma publish_down subject ms : forall p sv sb d, let s := mkO false p [] false sv sb d in
  exists s' o, orun subject s (map (fun m => Pub m false) ms) = Some (s', o) /\
    (Forall (fun x => exists m, x = OPub m true) o <-> (forall a m b, ms = a ++ m :: b -> plen p + plen a < reconnectBuf)).
Proof.
  induction ms as [|m ms IH]; intros p sv sb d s.
  - exists s, []. split; [reflexivity|]. split; [|constructor]. intros _ a m b X. destruct a; discriminate X.
  - cbn [map orun]. unfold s. cbn [ostep up pend wire linked srv subs down]. destruct (Z.leb_spec reconnectBuf (plen p)) as [L|L].
    + destruct (IH p sv sb d) as (s' & o & R & _). rewrite R. exists s', ([OPub m false] ++ o). split; [reflexivity|]. split.
      * intros F. inversion F as [|? ? (m' & X) _]; subst. discriminate X.
      * intros H. specialize (H [] m ms eq_refl). cbn [plen] in H. lia.
    + destruct (IH (p ++ [m]) sv sb d) as (s' & o & R & Q). rewrite R. exists s', ([OPub m true] ++ o). split; [reflexivity|]. cbn [app]. split.
      * intros F. inversion F as [|? ? _ F']; subst. pose proof (proj1 Q F') as F2. rewrite plen_app in F2. cbn [plen] in F2. intros a m' b X. destruct a as [|x a]; cbn [app plen] in *.
        -- lia.
        -- inversion X; subst. specialize (F2 a m' b eq_refl). lia.
      * intros H. constructor; [eauto|]. apply Q. intros a m' b X. rewrite plen_app. cbn [plen]. specialize (H (m :: a) m' b). cbn [app plen] in H. rewrite X in H. specialize (H eq_refl). lia.
Qed.

(** ** Counting *)
(** The answers of Publish for the subject, in order. *)
Definition answers (subject : bytes) (o : list oobs) : list bool := concat (map (fun x => match x with OPub m ok => if mine subject m then [ok] else [] | _ => [] end) o).
Lemma refused_answers subject o : length (refused subject o) = length (filter negb (answers subject o)) /\ length (published subject o) = length (answers subject o).
Proof.
  unfold refused, published, answers. induction o as [|x o [IH1 IH2]]; [split; reflexivity|]. cbn [map concat]. rewrite !filter_app, !app_length, IH1, IH2.
  destruct x as [m ok|m|m|m]; cbn [filter length]; [|split; reflexivity..]. destruct ok, (mine subject m) eqn:M; cbn [filter length]; rewrite ?M; cbn; split; lia.
Qed.
Lemma filter_seq (pf : nat -> bool) bs : forall k, (forall i b, nth_error bs i = Some b -> pf (k + i)%nat = negb b) -> length (filter pf (seq k (length bs))) = length (filter negb bs).
Proof.
  induction bs as [|b bs IH]; intros k H; [reflexivity|]. cbn [length seq filter].
  rewrite <- (Nat.add_0_r k) at 1. rewrite (H 0%nat b eq_refl).
  assert (IH' : length (filter pf (seq (S k) (length bs))) = length (filter negb bs)).
  { apply IH. intros i b' E. replace (S k + i)%nat with (k + S i)%nat by lia. apply H. exact E. }
  destruct (negb b); cbn [length]; lia.
Qed.
