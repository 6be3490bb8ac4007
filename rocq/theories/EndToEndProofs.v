From Verif Require Import Base LinesSpec Text TextSpec TextProofs Rules RulesSpec FilterWorker FilterSpec RulesProofs RouteProofs FilterProofs Listener ListenerSpec ListenerProofs HttpProofs Convert Timestamps
  Retry RetrySpec Writer WriterSpec WriterTop EndToEnd.
Local Open Scope nat_scope.

Lemma flat_map_flat_map {A B C} (f : A -> list B) (g : B -> list C) l : flat_map g (flat_map f l) = flat_map (fun x => flat_map g (f x)) l.
Proof. induction l as [|x l IH]; auto. cbn [flat_map]. rewrite flat_map_app, IH. reflexivity. Qed.

Lemma flat_map_concat {A B} (f : A -> list B) (l : list (list A)) : flat_map f (concat l) = flat_map (flat_map f) l.
Proof. induction l as [|x l IH]; auto. cbn [flat_map concat]. rewrite flat_map_app, IH. reflexivity. Qed.

Lemma flat_map_map {A B C} (f : A -> B) (g : B -> list C) l : flat_map g (map f l) = flat_map (fun x => g (f x)) l.
Proof. induction l as [|x l IH]; auto. cbn [flat_map map]. rewrite IH. reflexivity. Qed.

Lemma perm_flat_map_app {A B} (f g : A -> list B) l : Permutation (flat_map (fun x => f x ++ g x) l) (flat_map f l ++ flat_map g l).
Proof.
  induction l as [|x l IH]; auto. cbn [flat_map]. rewrite <- !app_assoc. apply Permutation_app_head.
  eapply perm_trans; [apply Permutation_app_head; exact IH|]. rewrite !app_assoc. apply Permutation_app_tail. apply Permutation_app_comm.
Qed.

Lemma flat_map_ext' {A B} (f g : A -> list B) l : (forall x, In x l -> f x = g x) -> flat_map f l = flat_map g l.
Proof. induction l as [|x l IH]; intros H; auto. cbn [flat_map]. rewrite H by (left; auto). rewrite IH; auto. intros y Hy. apply H. right; auto. Qed.

Lemma combine_seq_nth {A} (l : list A) a b : forall k, In (a, b) (combine (seq k (length l)) l) -> nth_error l (a - k) = Some b.
Proof.
  induction l as [|x l IH]; intros k H; [destruct H|]. cbn [length seq combine] in H. destruct H as [H|H].
  - inversion H; subst. rewrite Nat.sub_diag. reflexivity.
  - pose proof (in_combine_l _ _ _ _ H) as Hl. apply in_seq in Hl. apply IH in H. destruct (a - k) as [|n] eqn:E; [lia|].
    cbn [nth_error]. replace n with (a - S k) by lia. exact H.
Qed.

(** ** The listener *)

Lemma arrived_ended us : Forall nl_ended (arrived us).
Proof.
  unfold arrived. apply Forall_forall. intros d Hd. apply in_map_iff in Hd. destruct Hd as (x & <- & Hx). apply filter_In in Hx.
  destruct Hx as [_ Hx]. destruct (with_nl_ended x) as (p & Hp).
  - intros ->. discriminate.
  - right. exists p. exact Hp.
Qed.

Lemma listener_lines pf c now us : (0 <= lc_max_size c <= 1048576)%Z ->
  Forall (fun u => Z.of_nat (length (u_data u)) <= 65536)%Z us ->
  Batch.Bytes (ls_batch (udp_run pf c (newListener c now) us)) = [] ->
  flat_map lines_of (ls_pub (udp_run pf c (newListener c now) us)) = sent_lines us /\
  Forall nl_ended (ls_pub (udp_run pf c (newListener c now) us)).
Proof.
  intros Hc Hu He. destruct (udp_messages pf c now us Hc Hu) as (groups & pend & E & _ & Pub & Pb & F). rewrite He in Pb.
  pose proof (arrived_ended us) as A. rewrite <- E in A. apply Forall_app in A. destruct A as [A1 A2].
  split.
  - rewrite Pub. unfold sent_lines. rewrite <- E. rewrite flat_map_app, flat_map_concat, flat_map_map.
    assert (X : flat_map lines_of pend = []).
    { rewrite <- lines_of_concat_ended by auto. rewrite <- Pb. reflexivity. }
    rewrite X, app_nil_r. clear - A1. induction groups as [|g gs IH]; auto. cbn [flat_map concat] in *. apply Forall_app in A1.
    destruct A1 as [A1 A2]. rewrite IH by auto. f_equal. apply lines_of_concat_ended; auto.
  - apply Forall_forall. intros m Hm. rewrite Forall_forall in F. destruct (F m Hm) as (_ & _ & p & ->). right. eauto.
Qed.

(** ** The filter: one batch *)

(** A fate that forwards its line unchanged to the subject. *)
Definition contrib (rs : list rule) (junk : bytes) (subs : list bytes) (f : fate) : list bytes :=
  match f with
  | FateRule i t => match nth_error rs i with Some r => if existsb (beqs (r_subject r)) subs then lines_of t else [] | None => [] end
  | FateJunk t => if existsb (beqs junk) subs then lines_of t else []
  | _ => []
  end.

Definition fate_text (f : fate) : bytes := match f with FateRule _ t | FateJunk t => t | _ => [] end.

Lemma data_for_ended i fs : Forall (fun f => nl_ended (fate_text f)) fs -> nl_ended (data_for i fs).
Proof.
  induction 1 as [|f fs H _ IH]; [left; reflexivity|]. unfold data_for in *. cbn [flat_map]. apply nl_ended_app; [|exact IH].
  destruct f as [j t| | |]; try (left; reflexivity). destruct (Nat.eqb j i); [exact H|left; reflexivity].
Qed.
Lemma junk_for_ended fs : Forall (fun f => nl_ended (fate_text f)) fs -> nl_ended (junk_for fs).
Proof.
  induction 1 as [|f fs H _ IH]; [left; reflexivity|]. unfold junk_for in *. cbn [flat_map]. apply nl_ended_app; [|exact IH].
  destruct f as [j t| | |]; try (left; reflexivity). exact H.
Qed.

(** The lines of the outputs on the subjects. *)
Definition out_lines (subs : list bytes) (l : list (bytes * bytes)) : list bytes :=
  flat_map (fun p : bytes * bytes => if existsb (beqs (fst p)) subs then lines_of (snd p) else []) l.

Lemma out_lines_filter subs l : out_lines subs (filter (fun p : bytes * bytes => match snd p with [] => false | _ => true end) l) = out_lines subs l.
Proof.
  induction l as [|[s d] l IH]; auto. cbn [filter snd]. destruct d as [|x d].
  - rewrite IH. unfold out_lines. cbn [flat_map fst snd lines_of]. destruct (existsb _ _); reflexivity.
  - unfold out_lines in *. cbn [flat_map]. rewrite IH. reflexivity.
Qed.

Lemma sum_one rs (P : rule -> list bytes) i : forall k,
  flat_map (fun ir : nat * rule => if Nat.eqb (i + k) (fst ir) then P (snd ir) else []) (combine (seq k (length rs)) rs) =
  match nth_error rs i with Some r => P r | None => [] end.
Proof.
  revert i. induction rs as [|r rs IH]; intros i k.
  - destruct i; reflexivity.
  - cbn [length seq combine flat_map fst snd]. destruct i as [|i].
    + rewrite Nat.eqb_refl. cbn [nth_error].
      assert (X : flat_map (fun ir : nat * rule => if Nat.eqb (0 + k) (fst ir) then P (snd ir) else []) (combine (seq (S k) (length rs)) rs) = []).
      { assert (G : forall l, Forall (fun x : nat * rule => k < fst x) l ->
          flat_map (fun ir : nat * rule => if Nat.eqb (0 + k) (fst ir) then P (snd ir) else []) l = []).
        { induction 1 as [|[a b] l H _ IHl]; auto. cbn [flat_map fst snd] in *. rewrite IHl. destruct (Nat.eqb_spec (0 + k) a); [lia|auto]. }
        apply G. apply Forall_forall. intros [a b] H. apply in_combine_l in H. apply in_seq in H. cbn. lia. }
      rewrite X, app_nil_r. reflexivity.
    + destruct (Nat.eqb_spec (S i + k) k); [lia|]. cbn [app nth_error]. rewrite <- (IH i (S k)). apply flat_map_ext.
      intros [a b]. replace (S i + k) with (i + S k) by lia. reflexivity.
Qed.

Lemma flat_none subs (l : list (nat * rule)) : flat_map (fun ir : nat * rule => if existsb (beqs (r_subject (snd ir))) subs then lines_of [] else []) l = [].
Proof. induction l as [|x l IHl]; auto. cbn [flat_map]. rewrite IHl. destruct (existsb _ _); auto. Qed.

Lemma outputs_lines rs junk subs fs : Forall (fun f => nl_ended (fate_text f)) fs ->
  Permutation (out_lines subs (outputs rs junk fs)) (flat_map (contrib rs junk subs) fs).
Proof.
  intros E. unfold outputs. rewrite out_lines_filter. unfold out_lines. rewrite flat_map_app, flat_map_map.
  cbn [flat_map fst snd]. rewrite app_nil_r.
  induction E as [|f fs H E IH].
  - cbn [flat_map]. unfold data_for, junk_for. cbn [flat_map lines_of].
    assert (X : forall l : list (nat * rule), flat_map (fun x : nat * rule => if existsb (beqs (r_subject (snd x))) subs then [] else []) l = @nil bytes).
    { induction l as [|x l IHl]; auto. cbn [flat_map]. rewrite IHl. destruct (existsb _ _); auto. }
    rewrite X. destruct (existsb _ _); auto.
  - cbn [flat_map]. eapply perm_trans; [|apply Permutation_app_head; exact IH]. clear IH.
    set (A := fun ir : nat * rule => if existsb (beqs (r_subject (snd ir))) subs then lines_of (match f with FateRule j t => if Nat.eqb j (fst ir) then t else [] | _ => [] end) else []).
    set (B := fun ir : nat * rule => if existsb (beqs (r_subject (snd ir))) subs then lines_of (data_for (fst ir) fs) else []).
    assert (X : forall l, flat_map (fun x : nat * rule => if existsb (beqs (r_subject (snd x))) subs then lines_of (data_for (fst x) (f :: fs)) else []) l
                = flat_map (fun x => A x ++ B x) l).
    { intros l. apply flat_map_ext. intros x. unfold A, B. destruct (existsb _ _); auto. unfold data_for at 1. cbn [flat_map].
      rewrite lines_of_app; auto. destruct f as [j t| | |]; try (left; reflexivity). destruct (Nat.eqb j (fst x)); [exact H|left; reflexivity]. }
    rewrite X. clear X.
    set (J := if existsb (beqs junk) subs then lines_of (match f with FateJunk t => t | _ => [] end) else []).
    assert (Y : (if existsb (beqs junk) subs then lines_of (junk_for (f :: fs)) else []) =
                J ++ (if existsb (beqs junk) subs then lines_of (junk_for fs) else [])).
    { unfold J. destruct (existsb _ _); auto. unfold junk_for at 1. cbn [flat_map]. rewrite lines_of_app; auto.
      destruct f as [j t| | |]; try (left; reflexivity). exact H. }
    rewrite Y. clear Y.
    assert (Z : flat_map A (combine (seq 0 (length rs)) rs) ++ J = contrib rs junk subs f).
    { unfold A, J, contrib. destruct f as [i t|t| |].
      - rewrite <- (sum_one rs (fun r => if existsb (beqs (r_subject r)) subs then lines_of t else []) i 0).
        rewrite Nat.add_0_r. assert (J0 : (if existsb (beqs junk) subs then lines_of [] else []) = @nil bytes) by (destruct (existsb _ _); auto).
        rewrite J0, app_nil_r. apply flat_map_ext. intros [a b]. cbn [fst snd]. destruct (Nat.eqb i a); destruct (existsb (beqs (r_subject b)) subs); auto.
      - rewrite flat_none. reflexivity.
      - rewrite flat_none. destruct (existsb _ _); auto.
      - rewrite flat_none. destruct (existsb _ _); auto. }
    rewrite <- Z. clearbody A B J. clear - A.
    eapply perm_trans; [apply Permutation_app_tail; apply perm_flat_map_app|]. rewrite <- !app_assoc. apply Permutation_app_head.
    rewrite !app_assoc. apply Permutation_app_tail. apply Permutation_app_comm.
Qed.

(** ** Parsing does not move newlines *)

Lemma unescape_in x v : In x (unescape_loop v) -> In x v.
Proof.
  remember (length v) as n eqn:En. revert v En. induction n as [n IH] using (well_founded_induction lt_wf). intros v En H. subst n.
  destruct v as [|a [|b v]]; [destruct H|exact H|]. cbn [unescape_loop] in H.
  destruct (Ascii.eqb a bsl && unescapable b).
  - destruct H as [->|H]; [right; left; reflexivity|]. right. right. apply (IH (length v)); auto. cbn. lia.
  - destruct H as [->|H]; [left; reflexivity|]. right. apply (IH (length (b :: v))); auto.
Qed.

Lemma Token_in u s t r : Token u s = (t, r) -> exists raw, s = raw ++ r /\ forall x, In x t -> In x raw.
Proof.
  rewrite Token_spec. destruct (TokenEscaped u s) as [raw r'] eqn:E. cbn [fst snd]. intros H. inversion H; subst.
  exists raw. split; [symmetry; eapply TokenEscaped_split; eauto|]. intros x Hx. unfold Unescape in Hx.
  destruct (memb raw bsl); auto. apply unescape_in; auto.
Qed.

Definition tag_in (x : ascii) (t : tag) : Prop := In x (fst t) \/ In x (snd t).

Lemma parse_loop_in f : forall m l acc m' tags rest, parse_tags_loop f m l acc = POk m' tags rest -> rest <> [] ->
  m' = m /\ exists pre new, l = pre ++ rest /\ tags = rev acc ++ new /\ forall x t, In t new -> tag_in x t -> In x pre.
Proof.
  induction f as [|f IH]; intros m l acc m' tags rest H Ne; [discriminate|]. cbn [parse_tags_loop] in H.
  destruct l as [|c l1]; [inversion H; subst; congruence|].
  destruct (Ascii.eqb c sp).
  - inversion H; subst. split; auto. exists [c], []. split; [reflexivity|]. split; [symmetry; apply app_nil_r|]. intros x t [].
  - destruct (Token (lit "= ,") l1) as [key l2] eqn:E1. destruct l2 as [|d l3]; [discriminate|].
    destruct (negb (Ascii.eqb d eqs)); [discriminate|]. destruct (Token (lit ", ") l3) as [value l4] eqn:E2.
    destruct value as [|v0 value]; [discriminate|].
    destruct (Token_in _ _ _ _ E1) as (r1 & -> & I1). destruct (Token_in _ _ _ _ E2) as (r2 & -> & I2).
    destruct (IH _ _ _ _ _ _ H Ne) as (-> & pre & new & -> & -> & I3). split; auto.
    exists (c :: r1 ++ d :: r2 ++ pre), ((key, v0 :: value) :: new). split; [|split].
    + cbn [app]. rewrite <- !app_assoc. cbn [app]. rewrite <- !app_assoc. reflexivity.
    + cbn [rev]. rewrite <- app_assoc. reflexivity.
    + intros x t [<-|Ht] Hx.
      * destruct Hx as [Hx|Hx]; cbn [fst snd] in Hx.
        -- right. apply in_app_iff. left. apply I1; auto.
        -- right. apply in_app_iff. right. right. apply in_app_iff. left. apply I2; auto.
      * right. apply in_app_iff. right. right. apply in_app_iff. right. eapply I3; eauto.
Qed.

Lemma ParseTags_in line m tags rest : ParseTags line = POk m tags rest -> rest <> [] ->
  exists pre, line = pre ++ rest /\ (forall x, In x m -> In x pre) /\ forall x t, In t tags -> tag_in x t -> In x pre.
Proof.
  unfold ParseTags. destruct (Token (lit ", ") line) as [m0 l] eqn:E. intros H Ne. destruct l as [|c l]; [inversion H; subst; congruence|].
  destruct (Token_in _ _ _ _ E) as (raw & -> & I1). destruct (parse_loop_in _ _ _ _ _ _ _ H Ne) as (-> & pre & new & E2 & -> & I2).
  exists (raw ++ pre). split; [rewrite E2, app_assoc; reflexivity|]. split.
  - intros x Hx. apply in_app_iff. left. apply I1; auto.
  - intros x t Ht Hx. cbn [rev app] in Ht. apply in_app_iff. right. eapply I2; eauto.
Qed.

Lemma esc_in cs v : ~ In nl v -> ~ In nl (esc_spec cs v).
Proof.
  intros H X. unfold esc_spec in X. apply in_flat_map in X. destruct X as (b & Hb & X).
  assert (b <> nl) by (intros ->; auto). destruct (memb cs b); cbn [In] in X; intuition (auto; discriminate).
Qed.

(** Writing a line again gives a line. *)
Lemma resorted_line p m tags tags' rest : ~ In nl p -> ParseTags (p ++ [nl]) = POk m tags rest -> rest <> [] -> Permutation tags tags' ->
  exists q, ~ In nl q /\ render_line m tags' rest = q ++ [nl].
Proof.
  intros Np H Ne P. destruct (ParseTags_in _ _ _ _ H Ne) as (pre & E & Im & It).
  destruct (@exists_last _ rest Ne) as (r & x & ->). rewrite app_assoc in E. apply app_inj_tail in E. destruct E as [-> <-].
  assert (N1 : ~ In nl pre) by (intros X; apply Np; apply in_app_iff; auto).
  assert (N2 : ~ In nl r) by (intros X; apply Np; apply in_app_iff; auto).
  unfold render_line. rewrite !app_assoc. eexists. split; [|reflexivity].
  intros X. rewrite <- !app_assoc in X. apply in_app_iff in X. destruct X as [X|X].
  { apply esc_in in X; auto. }
  apply in_app_iff in X. destruct X as [X|X].
  - apply in_flat_map in X. destruct X as (t & Ht & X). apply Permutation_sym in P. pose proof (Permutation_in _ P Ht) as Ht'.
    apply in_app_iff in X. destruct X as [[X|[]]|X]; [discriminate|].
    apply in_app_iff in X. destruct X as [X|X]; [apply esc_in in X; auto; intros Y; apply N1; eapply It; eauto; left; auto|].
    apply in_app_iff in X. destruct X as [[X|[]]|X]; [discriminate|].
    apply esc_in in X; auto. intros Y; apply N1; eapply It; eauto; right; auto.
  - apply in_app_iff in X. destruct X as [[X|[]]|X]; [discriminate|auto].
Qed.

(** ** The filter: one batch *)

Lemma text_line c p m tags rest text : ~ In nl p -> sound_line c (p ++ [nl]) -> ParseTags (p ++ [nl]) = POk m tags rest ->
  sorted_text (p ++ [nl]) m tags rest text -> exists q, ~ In nl q /\ text = q ++ [nl].
Proof.
  intros Np [_ So] H (tags' & P & _ & S1 & S2). destruct (keys_sorted_dec tags) as [K|K].
  - exists p. split; auto.
  - specialize (S2 K). destruct (So _ _ _ H) as [K'|Ne]; [contradiction|].
    destruct rest as [|x rest]; [congruence|]. rewrite S2. eapply resorted_line; eauto.
Qed.

Lemma existsb_in s subs : existsb (beqs s) subs = true <-> In s subs.
Proof.
  rewrite existsb_exists. split.
  - intros (x & H & E). apply beqs_eq in E. subst. auto.
  - intros H. exists s. split; auto. apply beqs_refl.
Qed.

Lemma fate_forwarded c now subs p f : ~ In nl p -> sound_line c (p ++ [nl]) ->
  line_fate now (fc_delta c) (first_rule (fc_rules c)) (p ++ [nl]) f ->
  nl_ended (fate_text f) /\ forwarded c subs now (p ++ [nl]) (contrib (fc_rules c) (fc_junk c) subs f).
Proof.
  intros Np So L.
  inversion L as [ts T W E|ts T W P E|ts m tags rest text i T W P Sx R E|ts m tags rest text T W P Sx R E]; subst f.
  - split; [left; reflexivity|]. eapply fw_time; eauto.
  - split; [left; reflexivity|]. eapply fw_bad; eauto.
  - destruct (text_line c p m tags rest text Np So P Sx) as (q & Nq & Et).
    assert (O : lines_of text = [text]) by (rewrite Et; apply (lines_of_nl_app q []); auto).
    split; [right; exists q; auto|]. cbn [contrib]. pose proof R as R'. destruct R' as [(r & Hr & Hm) Hn]. rewrite Hr, O.
    eapply fw_to with (o := Some i); eauto.
  - destruct (text_line c p m tags rest text Np So P Sx) as (q & Nq & Et).
    assert (O : lines_of text = [text]) by (rewrite Et; apply (lines_of_nl_app q []); auto).
    split; [right; exists q; auto|]. cbn [contrib]. rewrite O. eapply fw_to with (o := None); eauto.
Qed.

Definition ready_batch (c : fcfg) (j : job) : Prop := time_ok c j /\ nl_ended (snd j) /\ Forall (sound_line c) (lines_of (snd j)).

Lemma batch_fates gs c subs oks now m : sorts gs -> ready_batch c (oks, now, m) ->
  exists fs, published (snd (processBatch gs c oks now (newFilterWorker c) m)) = outputs (fc_rules c) (fc_junk c) fs /\
    Forall (fun f => nl_ended (fate_text f)) fs /\
    Forall2 (forwarded c subs now) (lines_of m) (map (contrib (fc_rules c) (fc_junk c) subs) fs).
Proof.
  intros GS ((B1 & B2) & E & So). cbn [snd] in *.
  assert (C : Forall (clean (fc_rules c)) (lines_of m)) by (eapply Forall_impl; [|exact So]; intros l (H & _); exact H).
  destruct (routing_right gs c oks now m GS B1 B2 C) as (fs & F & Pub). exists fs. split; [exact Pub|].
  assert (O : Forall (fun l => exists p, ~ In nl p /\ l = p ++ [nl]) (lines_of m)).
  { apply Forall_forall; intros l H. pose proof (lines_of_ended m E) as En. rewrite Forall_forall in En. specialize (En l H).
    pose proof (lines_of_nonempty m) as Nz. destruct (lines_of_shape m l H) as (p & Np & [->| ->]); [eauto|].
    destruct En as [->|(q & ->)]; [exfalso; exact (Nz [] H eq_refl)|]. exfalso. apply Np. apply in_app_iff. right. left. reflexivity. }
  clear Pub C B1 B2 E. revert F So O. generalize (lines_of m). intros l F. induction F as [|x f l fs L F IH]; intros So O; [split; constructor|].
  inversion So; inversion O as [|? ? (p & Np & Ep) O']; subst. destruct IH as [I1 I2]; auto.
  destruct (fate_forwarded c now subs p f) as [G1 G2]; auto. split; cbn [map]; constructor; auto.
Qed.

Lemma batch_lines gs c subs oks now m : sorts gs -> ready_batch c (oks, now, m) ->
  (exists outs, Forall2 (forwarded c subs now) (lines_of m) outs /\
    Permutation (out_lines subs (published (snd (processBatch gs c oks now (newFilterWorker c) m)))) (concat outs)) /\
  Forall (fun p : bytes * bytes => nl_ended (snd p)) (published (snd (processBatch gs c oks now (newFilterWorker c) m))).
Proof.
  intros GS R. destruct (batch_fates gs c subs oks now m GS R) as (fs & -> & E & F). split.
  - eexists. split; [exact F|]. rewrite <- flat_map_concat_map. apply outputs_lines; exact E.
  - unfold outputs. apply Forall_forall. intros p H. apply filter_In in H. destruct H as [H _]. apply in_app_iff in H. destruct H as [H|[<-|[]]].
    + apply in_map_iff in H. destruct H as ([i r] & <- & _). apply data_for_ended. exact E.
    + apply junk_for_ended. exact E.
Qed.

(** With the subject of one rule only (or of junk only), the order is kept. *)
Lemma outputs_in_order rs junk s fs : Forall (fun f => nl_ended (fate_text f)) fs -> NoDup (map r_subject rs ++ [junk]) ->
  out_lines [s] (outputs rs junk fs) = flat_map (contrib rs junk [s]) fs.
Proof.
  intros E Nd. unfold outputs. rewrite out_lines_filter. unfold out_lines. rewrite flat_map_app, flat_map_map.
  cbn [flat_map fst snd]. rewrite app_nil_r.
  assert (X : forall t, existsb (beqs t) [s] = true <-> t = s).
  { intros t. rewrite existsb_in. cbn. intuition. }
  destruct (existsb (beqs junk) [s]) eqn:J.
  - apply X in J. subst s.
    assert (N : forall r, In r rs -> existsb (beqs (r_subject r)) [junk] = false).
    { intros r Hr. destruct (existsb (beqs (r_subject r)) [junk]) eqn:Y; auto. apply X in Y. exfalso.
      apply NoDup_remove_2 in Nd. rewrite app_nil_r in Nd. apply Nd. rewrite <- Y. apply in_map; auto. }
    assert (Z1 : flat_map (fun x : nat * rule => if existsb (beqs (r_subject (snd x))) [junk] then lines_of (data_for (fst x) fs) else []) (combine (seq 0 (length rs)) rs) = []).
    { assert (G : forall l, (forall x, In x l -> In (snd x) rs) ->
        flat_map (fun x : nat * rule => if existsb (beqs (r_subject (snd x))) [junk] then lines_of (data_for (fst x) fs) else []) l = []).
      { induction l as [|[a b] l IH]; intros H; auto. cbn [flat_map fst snd]. rewrite IH by (intros; apply H; right; auto).
        rewrite (N b); auto. apply (H (a, b)). left; auto. }
      apply G. intros [a b] H. apply in_combine_r in H. auto. }
    rewrite Z1. cbn [app]. clear Z1 Nd.
    induction E as [|f fs H E IH]; auto. cbn [flat_map]. rewrite <- IH.
    unfold junk_for at 1. cbn [flat_map]. rewrite lines_of_app; [|destruct f; try (left; reflexivity); exact H].
    f_equal. destruct f as [i t|t| |]; cbn [contrib lines_of]; auto.
    + destruct (nth_error rs i) as [r|] eqn:Hr; auto. rewrite N; auto. eapply nth_error_In; eauto.
    + replace (existsb (beqs junk) [junk]) with true; auto. symmetry. apply X. auto.
  - rewrite app_nil_r.
    assert (Nd' : NoDup (map r_subject rs)) by (apply NoDup_remove_1 in Nd; rewrite app_nil_r in Nd; exact Nd).
    clear Nd. destruct (in_dec (list_eq_dec Ascii.ascii_dec) s (map r_subject rs)) as [Hs|Hs].
    + apply in_map_iff in Hs. destruct Hs as (r0 & E0 & Hr0). apply In_nth_error in Hr0. destruct Hr0 as (k & Hk).
      assert (U : forall i r, nth_error rs i = Some r -> (existsb (beqs (r_subject r)) [s] = true <-> i = k)).
      { intros i r Hr. rewrite X. split.
        - intros Y. apply (proj1 (NoDup_nth_error (map r_subject rs)) Nd' i k).
          + apply nth_error_Some. rewrite (map_nth_error _ _ _ Hr). discriminate.
          + rewrite (map_nth_error _ _ _ Hr), (map_nth_error _ _ _ Hk). congruence.
        - intros ->. rewrite Hk in Hr. inversion Hr; subst. auto. }
      assert (Y : flat_map (fun x : nat * rule => if existsb (beqs (r_subject (snd x))) [s] then lines_of (data_for (fst x) fs) else []) (combine (seq 0 (length rs)) rs)
        = lines_of (data_for k fs)).
      { rewrite (flat_map_ext' _ (fun ir : nat * rule => if Nat.eqb (k + 0) (fst ir) then lines_of (data_for k fs) else [])).
        - rewrite (sum_one rs (fun _ => lines_of (data_for k fs)) k 0), Hk. reflexivity.
        - intros [a b] H. cbn [fst snd]. apply combine_seq_nth in H. rewrite Nat.sub_0_r in H. rewrite Nat.add_0_r.
          specialize (U a b H). destruct (existsb (beqs (r_subject b)) [s]), (Nat.eqb_spec k a); subst; auto.
          + exfalso. apply n. symmetry. apply U. auto.
          + exfalso. assert (false = true) by (apply U; auto). discriminate. }
      rewrite Y. clear Y. induction E as [|f fs H E IH]; auto. cbn [flat_map]. rewrite <- IH. unfold data_for at 1. cbn [flat_map].
      rewrite lines_of_app; [|destruct f; try (left; reflexivity); destruct (Nat.eqb _ _); [exact H|left; reflexivity]].
      f_equal. destruct f as [i t|t| |]; cbn [contrib lines_of]; auto.
      * destruct (Nat.eqb_spec i k) as [->|Ni].
        -- rewrite Hk. replace (existsb (beqs (r_subject r0)) [s]) with true; auto. symmetry. apply X. auto.
        -- cbn [lines_of]. destruct (nth_error rs i) as [r|] eqn:Hr; auto. destruct (existsb (beqs (r_subject r)) [s]) eqn:B; auto.
           exfalso. apply Ni. apply (U i r Hr). auto.
      * rewrite J. reflexivity.
    + assert (N : forall r, In r rs -> existsb (beqs (r_subject r)) [s] = false).
      { intros r Hr. destruct (existsb (beqs (r_subject r)) [s]) eqn:Y; auto. apply X in Y. exfalso. apply Hs. rewrite <- Y. apply in_map; auto. }
      rewrite (flat_map_ext' _ (fun _ : nat * rule => [])).
      * assert (Z : forall (A B : Type) (l : list A), flat_map (fun _ : A => @nil B) l = []) by (induction l; auto).
        rewrite Z. symmetry. clear E. induction fs as [|f fs IH]; auto. cbn [flat_map]. rewrite IH, app_nil_r.
        destruct f as [i t|t| |]; cbn [contrib]; auto.
        -- destruct (nth_error rs i) as [r|] eqn:Hr; auto. rewrite N; auto. eapply nth_error_In; eauto.
        -- rewrite J; auto.
      * intros [a b] H. cbn [fst snd]. rewrite N; auto. apply in_combine_r in H. auto.
Qed.

(** ** The filter: the pool *)

Lemma perm_out_lines subs a b : Permutation a b -> Permutation (out_lines subs a) (out_lines subs b).
Proof. intros P. unfold out_lines. apply Permutation_flat_map. exact P. Qed.

Lemma on_subjects_lines subs acts : count_publish_failures acts = 0 -> flat_map lines_of (on_subjects subs acts) = out_lines subs (published acts) /\
  forall d, In d (on_subjects subs acts) -> exists s, In (s, d) (published acts).
Proof.
  intros H. induction acts as [|a acts IH]; [split; [reflexivity|intros d []]|].
  unfold count_publish_failures in H. cbn [filter] in H.
  assert (H' : count_publish_failures acts = 0) by (unfold count_publish_failures; destruct a as [|?|? ? [|]]; auto; discriminate).
  destruct (IH H') as [I1 I2]. unfold on_subjects, published, out_lines in *. cbn [flat_map].
  destruct a as [|?|s d [|]]; try discriminate; cbn [app]; auto.
  split.
  - rewrite flat_map_app, I1. cbn [flat_map fst snd]. destruct (existsb _ _); cbn [flat_map app]; rewrite ?app_nil_r; reflexivity.
  - intros d' Hd. apply in_app_iff in Hd. destruct Hd as [Hd|Hd].
    + destruct (existsb _ _); [destruct Hd as [<-|[]]|destruct Hd]. exists s. left. reflexivity.
    + destruct (I2 d' Hd) as (s' & Hs). exists s'. right. exact Hs.
Qed.

Definition outs_of (c : fcfg) (subs : list bytes) (j : job) (outs : list (list bytes)) : Prop :=
  let '(_, now, m) := j in Forall2 (forwarded c subs now) (lines_of m) outs.

Lemma filter_ended gs c n ls s subs : sorts gs -> fexec gs c (startFilter c n) ls s -> quiet s ->
  Forall (ready_batch c) (taken ls) -> count_publish_failures (performed ls) = 0 -> Forall nl_ended (on_subjects subs (performed ls)).
Proof.
  intros GS X Q R Nf. destruct (pool_quiet gs c n ls s X Q) as (Rc & P & _).
  destruct (on_subjects_lines subs (performed ls) Nf) as [O1 O2].
  set (out := fun j : job => let '(oks, now, m) := j in published (snd (processBatch gs c oks now (newFilterWorker c) m))) in *.
  apply Forall_forall. intros d Hd. destruct (O2 d Hd) as (sb & Hs).
  assert (Hx : In (sb, d) (flat_map out (taken ls))) by (eapply Permutation_in; [exact P|exact Hs]).
  apply in_flat_map in Hx. destruct Hx as ([[oks now] m] & Hj & Hx). rewrite Forall_forall in R. specialize (R _ Hj).
  destruct (batch_lines gs c subs oks now m GS R) as [_ B]. rewrite Forall_forall in B. apply (B _ Hx).
Qed.

Lemma filter_lines gs c n ls s subs : sorts gs -> fexec gs c (startFilter c n) ls s -> quiet s ->
  Forall (ready_batch c) (taken ls) -> count_publish_failures (performed ls) = 0 ->
  exists outss, Forall2 (outs_of c subs) (taken ls) outss /\
    Permutation (flat_map lines_of (on_subjects subs (performed ls))) (concat (concat outss)).
Proof.
  intros GS X Q R Nf. destruct (pool_quiet gs c n ls s X Q) as (Rc & P & _).
  destruct (on_subjects_lines subs (performed ls) Nf) as [O1 O2]. rewrite O1.
  apply (perm_out_lines subs) in P. clear - GS R P.
  assert (G : forall js, Forall (ready_batch c) js -> exists outss, Forall2 (outs_of c subs) js outss /\
    Permutation (out_lines subs (flat_map (fun j : job => let '(oks, now, m) := j in published (snd (processBatch gs c oks now (newFilterWorker c) m))) js)) (concat (concat outss))).
  { induction 1 as [|[[oks now] m] js H R' IH]; [exists []; split; auto|]. destruct IH as (outss & F & I).
    destruct (batch_lines gs c subs oks now m GS H) as [(outs & F' & B) _]. exists (outs :: outss). split; [constructor; auto|].
    cbn [flat_map concat]. unfold out_lines in *. rewrite flat_map_app, concat_app. apply Permutation_app; auto. }
  destruct (G _ R) as (outss & F & I). exists outss. split; auto. eapply perm_trans; eauto.
Qed.

(** A filter with one worker performs the batches one after the other. *)
Lemma single_order gs c ls s : fexec gs c (startFilter c 1) ls s ->
  performed ls ++ flat_map todo_of (s_workers s) = flat_map (job_acts gs c) (taken ls).
Proof.
  remember (startFilter c 1) as s0 eqn:E0. intros H. induction H as [s|s0 l s1 ls s2 H IH St]; subst; [reflexivity|].
  pose proof (pool_invariant gs c 1 ls s1 H) as (_ & _ & _ & F & L & _). specialize (IH eq_refl).
  assert (Ta : taken (ls ++ [l]) = taken ls ++ taken [l]) by (apply flat_map_app).
  assert (Pa : performed (ls ++ [l]) = performed ls ++ performed [l]) by (apply flat_map_app).
  rewrite Ta, Pa, flat_map_app, <- IH.
  inversion St as [q ws d t m Hc|q ws d t w st oks now m st' acts Hw Hp|q ws d t w st a todo Hw
      |q ws d t w st Hw|q ws d|q ws d w st Hw]; subst; cbn [s_workers] in *;
    cbn [taken performed flat_map app] in *; rewrite ?app_nil_r; auto;
    (destruct ws as [|w0 [|? ?]]; cbn [length] in L; try lia);
    (destruct w as [|w]; cbn [nth_error] in Hw; [|destruct w; discriminate]); inversion Hw; subst; cbn [FilterWorker.set_nth flat_map todo_of]; rewrite ?app_nil_r; auto.
  - inversion F as [|? ? Fw _]; subst. cbn in Fw. subst st. unfold job_acts. rewrite Hp. reflexivity.
  - rewrite <- app_assoc. reflexivity.
Qed.

Lemma single_lines gs c ls s sb : sorts gs -> fexec gs c (startFilter c 1) ls s -> quiet s -> NoDup (map r_subject (fc_rules c) ++ [fc_junk c]) ->
  Forall (ready_batch c) (taken ls) -> count_publish_failures (performed ls) = 0 ->
  exists outss, Forall2 (outs_of c [sb]) (taken ls) outss /\ flat_map lines_of (on_subjects [sb] (performed ls)) = concat (concat outss).
Proof.
  intros GS X [_ Q] Nd R Nf. pose proof (single_order gs c ls s X) as P. rewrite (quiet_todo _ Q), app_nil_r in P.
  destruct (on_subjects_lines [sb] (performed ls) Nf) as [O1 O2]. rewrite O1, P. clear - GS R Nd.
  induction R as [|[[oks now] m] js H R' IH]; [exists []; split; auto|]. destruct IH as (outss & F & I).
  destruct (batch_fates gs c [sb] oks now m GS H) as (fs & Pu & E & Fo). exists (map (contrib (fc_rules c) (fc_junk c) [sb]) fs :: outss).
  split; [constructor; auto|]. cbn [flat_map concat]. rewrite published_app. unfold out_lines in *. rewrite flat_map_app, concat_app.
  f_equal; auto. unfold job_acts. rewrite Pu. fold (out_lines [sb] (outputs (fc_rules c) (fc_junk c) fs)).
  rewrite (outputs_in_order _ _ _ _ E Nd). apply flat_map_concat_map.
Qed.

(** Lines that pass unchanged. *)
Lemma forwarded_passes c subs sel now line outs : passes c now line -> selects c subs sel line -> forwarded c subs now line outs ->
  outs = if sel line then [line] else [].
Proof.
  intros ((ts & T & W) & (m & tags & rest & P & So) & _) Sl F. unfold selects in Sl.
  inversion F as [ts' T' W' E|P' E|ts' m' tags' rest' text o sb T' W' P' Sx R B E].
  - rewrite (line_time_unique _ _ _ _ T' T) in W'. contradiction.
  - rewrite P in P'. discriminate.
  - rewrite P in P'. inversion P'; subst m' tags' rest'. destruct Sx as (t' & _ & _ & Sx & _). specialize (Sx So). subst text.
    destruct (existsb (beqs sb) subs) eqn:Eb.
    + apply existsb_in in Eb. assert (Y : sel line = true) by (apply Sl; exists sb; split; auto; exists m, tags, rest, o; auto). rewrite Y; auto.
    + destruct (sel line) eqn:Y; auto. exfalso. destruct (proj1 Sl eq_refl) as (s & Hs & (m' & tags' & rest' & o' & P2 & F2 & D2)).
      rewrite P in P2. inversion P2; subst m' tags' rest'. rewrite <- (first_such_unique _ _ _ _ R F2) in D2.
      assert (s = sb). { destruct o as [i|]; [destruct D2 as (r & H1 & <-); destruct B as (r' & H2 & <-); congruence|congruence]. }
      subst s. apply existsb_in in Hs. congruence.
Qed.

Lemma forwarded_sel c subs sel js outss : Forall (fun j : job => let '(_, now, m) := j in Forall (fun l => passes c now l /\ selects c subs sel l) (lines_of m)) js ->
  Forall2 (outs_of c subs) js outss -> concat (concat outss) = filter sel (flat_map lines_of (map (fun j : job => snd j) js)).
Proof.
  intros H F. induction F as [|[[oks now] m] outs js outss O F IH]; auto. inversion H as [|? ? H1 H2]; subst. cbn [map flat_map concat snd].
  rewrite concat_app, filter_app, IH by auto. f_equal. cbn in O. clear - H1 O. induction O as [|l o ls os L O IH]; auto.
  inversion H1 as [|? ? [Hp Hs] H2]; subst. cbn [concat filter]. rewrite IH by auto. rewrite (forwarded_passes c subs sel now l o Hp Hs L). destruct (sel l); auto.
Qed.

(** ** The writer *)

Lemma writer_lines w : ww_ok w -> wc_rules (ww_cfg w) = [] ->
  Forall nl_ended (map snd (messages (ww_trace w))) ->
  Forall (fun l => length l <= wc_size (ww_cfg w)) (flat_map lines_of (map snd (messages (ww_trace w)))) ->
  flat_map lines_of (bodies (ww_trace w)) ++ lines_of (held (ww_state w)) = flat_map lines_of (map snd (messages (ww_trace w))).
Proof.
  intros (Hs & Hc & Hr) Rl En Ln. destruct (pair_data _ Hs _ _ _ _ _ Hc Hr) as (D & _ & _).
  assert (Hi : forall d, accepted (wc_rules (ww_cfg w)) d = d) by (intros d; unfold accepted, writes_of; rewrite Rl; cbn; apply app_nil_r).
  assert (B : Forall nl_ended (bodies (ww_trace w))).
  { apply (pair_lines _ Hs _ _ _ _ _ Hc Hr). apply Forall_forall. intros m Hm. rewrite Hi.
    rewrite Forall_forall in En, Ln. split; [apply En; apply in_map; exact Hm|].
    apply Forall_forall. intros l Hl. apply Ln. apply in_flat_map. exists (snd m). split; [apply in_map; exact Hm|exact Hl]. }
  assert (J : input (wc_rules (ww_cfg w)) (ww_trace w) = concat (map snd (messages (ww_trace w)))).
  { unfold input. f_equal. apply map_ext. intros m. apply Hi. }
  rewrite J in D. rewrite <- (lines_of_concat_ended _ B), <- (lines_of_concat_ended _ En), <- D.
  symmetry. apply lines_of_app. apply nl_ended_concat. exact B.
Qed.

Lemma filter_part {A} (p : A -> bool) l : Permutation l (filter p l ++ filter (fun x => negb (p x)) l).
Proof.
  induction l as [|x l IH]; auto. cbn [filter]. destruct (p x); cbn [negb app].
  - apply perm_skip. exact IH.
  - eapply perm_trans; [apply perm_skip; exact IH|]. apply Permutation_middle.
Qed.

Lemma writer_acknowledged w : ww_ok w -> settled_ok w -> Permutation (acknowledged (ww_trace w)) (bodies (ww_trace w)).
Proof.
  intros (Hs & Hc & Hr) (_ & Off & On). unfold acknowledged, bodies.
  assert (F : Permutation (map snd (delivered (retries (ww_trace w)))) (map snd (failures (ww_trace w)))).
  { destruct (Z_le_gt_dec 1 (wc_retry (ww_cfg w))) as [R|R].
    - destruct (On R) as (E1 & E2 & E3 & E4 & E5). destruct (pair_conservation _ Hs _ _ _ _ _ Hc R Hr) as (P & _).
      unfold RetryMain.buf in P; rewrite E1, E2, E3, E4, E5 in P. cbn [app] in P. rewrite app_nil_r in P. symmetry. apply Permutation_map. exact P.
    - assert (R' : (wc_retry (ww_cfg w) <= 0)%Z) by lia. rewrite (Off R').
      destruct (pair_off _ Hs _ _ _ _ _ Hc R' Hr) as [E _]. rewrite E. apply Permutation_refl. }
  unfold failures in F. rewrite map_map in F. eapply perm_trans; [apply Permutation_app_head; exact F|]. rewrite <- map_app. apply Permutation_map. symmetry. apply filter_part.
Qed.

(** ** Together *)

Lemma handled_lines fl : map snd (handled fl) = flat_map lines_of (map (fun j : job => snd j) (taken fl)).
Proof.
  unfold handled. induction (taken fl) as [|[[oks now] m] js IH]; auto. cbn [flat_map map snd]. rewrite map_app, IH, map_map. cbn [snd]. rewrite map_id. reflexivity.
Qed.

Lemma handled_outs c subs fl outss : Forall2 (outs_of c subs) (taken fl) outss ->
  Forall2 (fun h o => forwarded c subs (fst h) (snd h) o) (handled fl) (concat outss).
Proof.
  unfold handled. intros F. induction F as [|[[oks now] m] outs js outss O F IH]; [constructor|]. cbn [flat_map concat]. apply Forall2_app; auto.
  cbn in O. clear - O. induction O; cbn [map]; constructor; auto.
Qed.

Lemma ended_lines b : Forall nl_ended (lines_of b) -> nl_ended b.
Proof. intros H. rewrite <- (lines_of_concat b). apply nl_ended_concat. exact H. Qed.

Lemma log_perm {A} (log : list (nat * A)) n : (forall i e, In (i, e) log -> i < n) ->
  Permutation (map snd log) (flat_map (fun i => map snd (filter (fun e => Nat.eqb (fst e) i) log)) (seq 0 n)).
Proof.
  induction log as [|[i e] log IH]; intros H.
  - cbn [map filter]. clear. induction (seq 0 n); auto.
  - cbn [map snd]. assert (Hi : i < n) by (eapply H; left; reflexivity).
    eapply perm_trans; [apply perm_skip; apply IH; intros; eapply H; right; eauto|]. clear IH H.
    assert (E : seq 0 n = seq 0 i ++ i :: seq (S i) (n - S i)).
    { replace n with (i + S (n - S i)) at 1 by lia. rewrite seq_app. reflexivity. }
    rewrite E, !flat_map_app. cbn [flat_map filter fst]. rewrite Nat.eqb_refl. cbn [map snd].
    assert (G : forall l, ~ In i l -> flat_map (fun j => map snd (if Nat.eqb i j then (i, e) :: filter (fun x => Nat.eqb (fst x) j) log else filter (fun x => Nat.eqb (fst x) j) log)) l
       = flat_map (fun j => map snd (filter (fun x => Nat.eqb (fst x) j) log)) l).
    { induction l as [|j l IHl]; intros Hn; auto. cbn [flat_map]. rewrite IHl by (intros X; apply Hn; right; auto).
      destruct (Nat.eqb_spec i j); [subst; exfalso; apply Hn; left; auto|reflexivity]. }
    rewrite !G; [|rewrite in_seq; lia|rewrite in_seq; lia]. cbn [app]. apply Permutation_middle.
Qed.

Lemma flat_seq {A B} (f : nat -> list B) (g : A -> list B) (l : list A) : forall k, (forall i x, nth_error l i = Some x -> f (k + i) = g x) ->
  flat_map f (seq k (length l)) = flat_map g l.
Proof.
  induction l as [|x l IH]; intros k H; auto. cbn [length seq flat_map]. rewrite <- (H 0 x eq_refl), Nat.add_0_r. f_equal.
  apply IH. intros i y Hy. rewrite <- (H (S i) y Hy). f_equal. lia.
Qed.

Lemma expected_ended q : nl_ended (q_body q) -> Forall nl_ended (expected q).
Proof.
  intros Hb. apply Forall_forall. intros u Hx. unfold expected in Hx. destruct (_ || _).
  - destruct (q_body q); [contradiction|]. destruct Hx as [<-|[]]. auto.
  - apply in_map_iff in Hx. destruct Hx as (l & <- & Hl). apply filter_In in Hl. destruct Hl as [Hl _].
    pose proof (lines_of_ended _ Hb) as F. rewrite Forall_forall in F. specialize (F l Hl).
    unfold applyTimestampPrecision. destruct (ExtractTimestamp l). destruct (_ =? -1)%Z; auto.
    destruct (SafeCalcTime _ _); auto. right. rewrite app_assoc. eauto.
Qed.

Lemma http_source_lines lc qs sent msgs : http_source lc qs sent msgs -> Permutation (flat_map lines_of msgs) sent /\ Forall nl_ended msgs.
Proof.
  intros (Hc & Hb & Fit & pf & t0 & labs & H). cbv zeta in H. destruct H as (Z0 & Dn & He & -> & ->).
  destruct (http_lines pf lc t0 qs labs Hc Hb Z0 Dn Fit) as (log & En & Lt & Eq). rewrite He in Eq. cbn [lines_of] in Eq. rewrite app_nil_r in Eq.
  assert (Q : Permutation (map snd log) (flat_map expected qs)).
  { eapply perm_trans; [apply (log_perm log (length qs)); exact Lt|]. erewrite (flat_seq _ expected qs 0); [apply Permutation_refl|].
    intros i q Hq. cbn [plus]. apply (En i q Hq). }
  assert (E : Forall nl_ended (flat_map expected qs)) by (apply Forall_flat_map; eapply Forall_impl; [|exact Hb]; intros q Hq; apply expected_ended; exact Hq).
  rewrite Eq. split; [apply Permutation_flat_map; exact Q|].
  apply Forall_forall. intros m Hm. apply ended_lines. apply Forall_forall. intros l Hl.
  assert (Hx : In l (flat_map lines_of (map snd log))) by (rewrite <- Eq; apply in_flat_map; eauto).
  apply in_flat_map in Hx. destruct Hx as (u & Hu & Hx). apply (Permutation_in _ Q) in Hu. rewrite Forall_forall in E.
  pose proof (lines_of_ended u (E u Hu)) as F. rewrite Forall_forall in F. auto.
Qed.

Lemma udp_source_lines lc us sent msgs : udp_source lc us sent msgs -> flat_map lines_of msgs = sent /\ Forall nl_ended msgs.
Proof. intros (H1 & H2 & pf & t0 & H). cbv zeta in H. destruct H as (H3 & -> & ->). apply (listener_lines pf lc t0 us H1 H2 H3). Qed.

Lemma pipe_ready gs sent msgs c n fl s : pipe gs sent msgs c n fl s ->
  Permutation (map snd (handled fl)) sent /\ Forall (ready_batch c) (taken fl) /\
  map snd (handled fl) = flat_map lines_of (received fl).
Proof.
  intros (GS & Src & H4 & X & Q & T & So & Nf).
  assert (L : Permutation (flat_map lines_of msgs) sent /\ Forall nl_ended msgs).
  { destruct Src as [(lc & us & H)|(lc & qs & H)].
    - destruct (udp_source_lines _ _ _ _ H) as [-> E]. auto.
    - apply (http_source_lines _ _ _ _ H). }
  destruct L as [Ll Le]. destruct (pool_quiet gs c n fl s X Q) as (Rc & _). rewrite handled_lines, <- Rc.
  assert (P : Permutation (flat_map lines_of (received fl)) sent).
  { eapply perm_trans; [|exact Ll]. apply Permutation_flat_map. exact H4. }
  split; [exact P|]. split; [|reflexivity].
  apply Forall_forall. intros j Hj.
  assert (Hm : In (snd j) (received fl)) by (rewrite Rc; apply in_map_iff; exists j; auto).
  rewrite Forall_forall in T, Le, So. split; [auto|]. split.
  - apply Le. eapply Permutation_in; eauto.
  - apply Forall_forall. intros x Hx. apply So. eapply Permutation_in; [exact P|]. apply in_flat_map. eauto.
Qed.

Lemma writers_lines subs fl ws : Forall plain_writer ws -> delivered_to subs fl ws -> Forall nl_ended (on_subjects subs (performed fl)) ->
  Permutation (in_writer ws) (flat_map lines_of (on_subjects subs (performed fl))).
Proof.
  intros W D E. unfold delivered_to in D.
  assert (P : Permutation (flat_map lines_of (flat_map (fun w => map snd (messages (ww_trace w))) ws)) (flat_map lines_of (on_subjects subs (performed fl)))) by (apply Permutation_flat_map; exact D).
  eapply perm_trans; [|exact P]. rewrite flat_map_flat_map.
  assert (En : Forall nl_ended (flat_map (fun w => map snd (messages (ww_trace w))) ws)).
  { apply Forall_forall. intros x Hx. rewrite Forall_forall in E. apply E. eapply Permutation_in; eauto. }
  unfold in_writer. clear - W En. induction W as [|w ws (Ok & Ru & Ln) W IH]; auto. cbn [flat_map] in *. apply Forall_app in En. destruct En as [E1 E2].
  apply Permutation_app; [|auto]. rewrite (writer_lines w Ok Ru E1 Ln). apply Permutation_refl.
Qed.

Lemma end_to_end gs sent msgs c n fl s subs ws : pipe gs sent msgs c n fl s -> Forall plain_writer ws -> delivered_to subs fl ws ->
  exists outs, Permutation (map snd (handled fl)) (sent) /\
    Forall2 (fun h o => forwarded c subs (fst h) (snd h) o) (handled fl) outs /\ Permutation (in_writer ws) (concat outs).
Proof.
  intros Pp W D. pose proof (pipe_ready _ _ _ _ _ _ _ Pp) as (Pm & R & _). destruct Pp as (GS & Src & H5 & X & Q & T & So & Nf).
  destruct (filter_lines gs c n fl s subs GS X Q R Nf) as (outss & F & P). exists (concat outss). split; [exact Pm|]. split; [apply handled_outs; exact F|].
  eapply perm_trans; [apply writers_lines; eauto; eapply filter_ended; eauto|]. exact P.
Qed.

Lemma outs_filter c subs sel hs outs : Forall2 (fun (h : Z * bytes) o => forwarded c subs (fst h) (snd h) o) hs outs ->
  Forall (fun h => passes c (fst h) (snd h)) hs -> Forall (selects c subs sel) (map snd hs) -> concat outs = filter sel (map snd hs).
Proof.
  intros F. induction F as [|[now l] o hs outs L F IH]; intros P Sl; auto. inversion P; inversion Sl; subst. cbn [map concat filter snd fst] in *.
  rewrite IH by auto. rewrite (forwarded_passes c subs sel now l o); auto. destruct (sel l); auto.
Qed.

Lemma perm_filter {A} (f : A -> bool) a b : Permutation a b -> Permutation (filter f a) (filter f b).
Proof.
  induction 1 as [|x a b P IH|x y a|a b d P1 IH1 P2 IH2]; auto.
  - cbn [filter]. destruct (f x); auto.
  - cbn [filter]. destruct (f x), (f y); auto. constructor.
  - eapply perm_trans; eauto.
Qed.

Lemma end_to_end_selected gs sent msgs c n fl s subs sel ws : pipe gs sent msgs c n fl s -> Forall plain_writer ws -> delivered_to subs fl ws ->
  Forall (fun h => passes c (fst h) (snd h)) (handled fl) -> Forall (selects c subs sel) (sent) ->
  Permutation (in_writer ws) (filter sel (sent)).
Proof.
  intros Pp W D P Sl. destruct (end_to_end _ _ _ _ _ _ _ _ _ Pp W D) as (outs & Pm & F & Pw). eapply perm_trans; [exact Pw|].
  rewrite (outs_filter c subs sel _ _ F P).
  - apply perm_filter. exact Pm.
  - apply Forall_forall. intros x Hx. rewrite Forall_forall in Sl. apply Sl. eapply Permutation_in; eauto.
Qed.

Lemma acknowledged_lines ws : Forall plain_writer ws -> Forall settled_ok ws -> Permutation (in_influxdb ws) (in_writer ws).
Proof.
  intros W S0. unfold in_influxdb, in_writer. induction W as [|w ws (Ok & _) W IH]; auto. inversion S0 as [|? ? Sw S1]; subst. cbn [flat_map].
  apply Permutation_app; auto. destruct Sw as (He & Sw). rewrite He. cbn [lines_of]. rewrite app_nil_r. apply Permutation_flat_map.
  apply writer_acknowledged; auto. split; auto.
Qed.

Lemma end_to_end_order gs sent msgs c fl s sb w : pipe gs sent msgs c 1 fl s -> flat_map lines_of (received fl) = sent -> NoDup (map r_subject (fc_rules c) ++ [fc_junk c]) ->
  plain_writer w -> map snd (messages (ww_trace w)) = on_subjects [sb] (performed fl) ->
  exists outs, map snd (handled fl) = sent /\ Forall2 (fun h o => forwarded c [sb] (fst h) (snd h) o) (handled fl) outs /\
    flat_map lines_of (bodies (ww_trace w)) ++ lines_of (held (ww_state w)) = concat outs.
Proof.
  intros Pp Rc Nd (Ok & Ru & Ln) D. pose proof (pipe_ready _ _ _ _ _ _ _ Pp) as (_ & R & Eq). destruct Pp as (GS & Src & H5 & X & Q & T & So & Nf).
  destruct (single_lines gs c fl s sb GS X Q Nd R Nf) as (outss & F & P). exists (concat outss). split; [congruence|]. split; [apply handled_outs; exact F|].
  rewrite <- P, <- D. apply writer_lines; auto. rewrite D. eapply filter_ended; eauto.
Qed.

Lemma end_to_end_order_selected gs sent msgs c fl s sb sel w : pipe gs sent msgs c 1 fl s -> flat_map lines_of (received fl) = sent -> NoDup (map r_subject (fc_rules c) ++ [fc_junk c]) ->
  plain_writer w -> map snd (messages (ww_trace w)) = on_subjects [sb] (performed fl) ->
  Forall (fun h => passes c (fst h) (snd h)) (handled fl) -> Forall (selects c [sb] sel) (sent) ->
  concat (bodies (ww_trace w)) ++ held (ww_state w) = concat (filter sel (sent)).
Proof.
  intros Pp Rc Nd W D P Sl. destruct (end_to_end_order _ _ _ _ _ _ _ _ Pp Rc Nd W D) as (outs & Eq & F & E).
  rewrite <- Eq in Sl |- *. rewrite <- (outs_filter c [sb] sel _ _ F P Sl), <- E, concat_app, lines_of_concat. f_equal.
  clear. induction (bodies (ww_trace w)) as [|b bs IH]; auto. cbn [flat_map concat]. rewrite concat_app, IH, lines_of_concat. reflexivity.
Qed.
