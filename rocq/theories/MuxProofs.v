(** Proofs about the routes (Mux.v). *)
From Verif Require Import Base Mux.
Local Open Scope nat_scope.

Definition noslash (s : bytes) := Forall (fun c => c <> slash) s.
Definition good (e : bytes) := e <> [] /\ noslash e /\ e <> lit "." /\ e <> lit "..".

Fixpoint ob (r : list bytes) : bytes := match r with [] => [slash] | s :: r => rev s ++ sep (ob r) end.

Lemma ob_pos r : 1 <= length (ob r).
Proof.
  induction r as [|s r IH]; cbn [ob]; [cbn; lia|].
  rewrite app_length. unfold sep. destruct (Nat.eqb_spec (length (ob r)) 1); cbn [length]; lia.
Qed.

Lemma noslash_rev s : noslash s -> noslash (rev s).
Proof. unfold noslash. rewrite !Forall_forall. intros H c Hc. apply H. apply in_rev. exact Hc. Qed.

Lemma back_app x O : x <> [] -> noslash x -> 1 <= length O -> back (x ++ sep O) = O.
Proof.
  induction x as [|c x IH]; intros Hne Hs HO; [congruence|].
  inversion Hs as [|? ? Hc Hx]; subst. cbn [app].
  assert (E : Ascii.eqb c slash = false) by (apply Ascii.eqb_neq; exact Hc).
  destruct x as [|d x].
  - cbn [app]. unfold sep. destruct (Nat.eqb_spec (length O) 1) as [E1|E1].
    + destruct O as [|o [|o2 O]]; cbn in E1; try lia. reflexivity.
    + destruct O as [|o [|o2 O]]; cbn in E1, HO; try lia.
      cbn [back length]. rewrite E. cbn [Nat.leb orb]. reflexivity.
  - cbn [app] in *. cbn [back]. rewrite E.
    assert (Hl : Nat.leb (length (d :: x ++ sep O)) 1 = false).
    { apply Nat.leb_gt. cbn [length]. rewrite app_length. unfold sep. destruct (Nat.eqb (length O) 1); cbn [length]; lia. }
    rewrite Hl. cbn [orb]. apply IH; [congruence|exact Hx|exact HO].
Qed.

Lemma back_ob r : Forall good r -> back (ob r) = ob (tl r).
Proof.
  intros H. destruct r as [|s r]; [reflexivity|]. cbn [ob tl].
  inversion H as [|? ? Hg Hr]; subst. destruct Hg as (Hne & Hs & _).
  apply back_app; [|apply noslash_rev; exact Hs|apply ob_pos].
  intros E. apply Hne. rewrite <- (rev_involutive s), E. reflexivity.
Qed.

Fixpoint walkr (es : list bytes) (r : list bytes) : list bytes :=
  match es with
  | [] => r
  | e :: es => if beqs e [] || beqs e (lit ".") then walkr es r
               else if beqs e (lit "..") then walkr es (tl r) else walkr es (e :: r)
  end.

Lemma walk_r es : forall r, walk es (rev r) = rev (walkr es r).
Proof.
  induction es as [|e es IH]; intros r; [reflexivity|]. cbn [walk walkr].
  destruct (beqs e [] || beqs e (lit ".")); [apply IH|].
  destruct (beqs e (lit "..")).
  - destruct r as [|x r]; [apply (IH [])|]. cbn [rev tl]. rewrite removelast_last. apply IH.
  - apply (IH (e :: r)).
Qed.

Lemma beqs_false a b : a <> b -> beqs a b = false.
Proof. intros H. apply (proj2 (beqs_neq a b)). exact H. Qed.

Definition rest_ok (rest : bytes) := rest = [] \/ exists q, rest = slash :: q.
Definition more (rest : bytes) : list bytes := match rest with [] => [] | _ :: q => elements q end.

Lemma elements_app s rest : noslash s -> rest_ok rest -> elements (s ++ rest) = s :: more rest.
Proof.
  induction s as [|c s IH]; intros Hs Hr.
  - destruct Hr as [->|[q ->]]; cbn; [reflexivity|]. rewrite ?Ascii.eqb_refl. reflexivity.
  - inversion Hs as [|? ? Hc Hs']; subst. cbn [app elements].
    rewrite (proj2 (Ascii.eqb_neq c slash) Hc), (IH Hs' Hr). reflexivity.
Qed.

Lemma cut p : exists s rest, p = s ++ rest /\ noslash s /\ rest_ok rest.
Proof.
  induction p as [|c p (s & rest & -> & Hs & Hr)].
  - exists [], []. split; [reflexivity|]. split; [constructor|left; reflexivity].
  - destruct (ascii_dec c slash) as [->|Hc].
    + exists [], (slash :: s ++ rest). split; [reflexivity|]. split; [constructor|right; eexists; reflexivity].
    + exists (c :: s), rest. split; [reflexivity|]. split; [constructor; assumption|exact Hr].
Qed.

Lemma clean_elem s rest : forall o, noslash s -> rest_ok rest -> clean true (s ++ rest) o = clean false rest (rev s ++ o).
Proof.
  induction s as [|c s IH]; intros o Hs Hr.
  - destruct Hr as [->|[q ->]]; reflexivity.
  - inversion Hs as [|? ? Hc Hs']; subst. cbn [app clean].
    rewrite (proj2 (Ascii.eqb_neq c slash) Hc), (IH _ Hs' Hr). cbn [rev]. rewrite <- app_assoc. reflexivity.
Qed.

Lemma ends_rest rest : rest_ok rest -> ends rest = true.
Proof. intros [->|[q ->]]; reflexivity. Qed.

Lemma ends_ns c s : c <> slash -> ends (c :: s) = false.
Proof. intros H. cbn. apply Ascii.eqb_neq. exact H. Qed.

(** One element. *)
Lemma clean_step s rest r : noslash s -> rest_ok rest -> Forall good r ->
  exists r', Forall good r' /\ clean false (s ++ rest) (ob r) = clean false rest (ob r') /\ (forall es, walkr (s :: es) r = walkr es r').
Proof.
  intros Hs Hr Hg.
  destruct s as [|c s].
  { exists r. split; [exact Hg|]. split; reflexivity. }
  pose proof Hs as Hs0.
  inversion Hs as [|? ? Hc Hs']; subst.
  pose proof (proj2 (Ascii.eqb_neq c slash) Hc) as Ec.
  destruct (list_eq_dec ascii_dec (c :: s) (lit ".")) as [E1|N1].
  { cbv in E1. injection E1 as -> ->. exists r. split; [exact Hg|]. split; [|reflexivity].
    cbn [app clean]. rewrite (ends_rest rest Hr). reflexivity. }
  destruct (list_eq_dec ascii_dec (c :: s) (lit "..")) as [E2|N2].
  { cbv in E2. injection E2 as -> ->. exists (tl r).
    split; [destruct r; [constructor|inversion Hg; assumption]|].
    split; [|reflexivity].
    rewrite <- (back_ob r Hg). cbn [app clean]. rewrite (ends_rest rest Hr). reflexivity. }
  exists ((c :: s) :: r).
  assert (Hgood : good (c :: s)) by (split; [discriminate|]; split; [exact Hs0|]; split; assumption).
  split; [constructor; assumption|]. split.
  - transitivity (clean true (s ++ rest) (c :: sep (ob r))).
    + cbn [app clean]. rewrite Ec.
      assert (X1 : Ascii.eqb c dotchar && ends (s ++ rest) = false).
      { destruct (Ascii.eqb_spec c dotchar) as [->|]; [|reflexivity].
        destruct s as [|d s]; [exfalso; apply N1; reflexivity|].
        inversion Hs'; subst. cbn [app]. rewrite ends_ns by assumption. reflexivity. }
      rewrite X1.
      destruct s as [|d s]; cbn [app].
      * destruct rest as [|x rest]; [reflexivity|].
        destruct Hr as [Hr|[q Hr]]; [discriminate|]. injection Hr as -> ->.
        change (Ascii.eqb slash dotchar) with false. rewrite Bool.andb_false_r. reflexivity.
      * assert (X2 : Ascii.eqb c dotchar && Ascii.eqb d dotchar && ends (s ++ rest) = false).
        { destruct (Ascii.eqb_spec c dotchar) as [->|]; [|reflexivity].
          destruct (Ascii.eqb_spec d dotchar) as [->|]; [|reflexivity].
          destruct s as [|e s]; [exfalso; apply N2; reflexivity|].
          inversion Hs' as [|? ? ? Hs'']; subst. inversion Hs''; subst.
          cbn [app andb]. apply ends_ns. assumption. }
        rewrite X2. reflexivity.
    + rewrite (clean_elem s rest _ Hs' Hr). f_equal. cbn [ob rev]. rewrite <- app_assoc. reflexivity.
  - intros es. cbn [walkr].
    rewrite (beqs_false (c :: s) [] ltac:(discriminate)), (beqs_false _ _ N1), (beqs_false _ _ N2). reflexivity.
Qed.

Lemma clean_walk n : forall p r, length p <= n -> Forall good r ->
  clean false p (ob r) = rev (ob (walkr (elements p) r)) /\ Forall good (walkr (elements p) r).
Proof.
  induction n as [|n IH]; intros p r Hn Hg;
    destruct (cut p) as (s & rest & -> & Hs & Hr);
    destruct (clean_step s rest r Hs Hr Hg) as (r' & Hg' & E & W);
    rewrite (elements_app s rest Hs Hr), E, W;
    destruct Hr as [->|[q ->]]; cbn [more walkr clean]; try (split; [reflexivity|exact Hg']).
  - rewrite app_length in Hn. cbn in Hn. lia.
  - change (Ascii.eqb slash slash) with true. cbv iota. apply IH; [|exact Hg'].
    rewrite app_length in Hn. cbn in Hn. lia.
Qed.

Lemma rev_ob r : Forall good r -> rev (ob r) = absolute (rev r).
Proof.
  induction r as [|s r IH]; intros Hg; [reflexivity|].
  inversion Hg as [|? ? Hs Hr]; subst. cbn [ob rev]. rewrite rev_app_distr, rev_involutive.
  assert (A : absolute (rev r ++ [s]) = concat (map (fun e => slash :: e) (rev r)) ++ slash :: s).
  { unfold absolute. destruct (rev r ++ [s]) eqn:E; [destruct (rev r); discriminate|].
    rewrite <- E, map_app, concat_app. cbn. rewrite app_nil_r. reflexivity. }
  rewrite A. unfold sep. destruct r as [|t r].
  - reflexivity.
  - assert (L : length (ob (t :: r)) <> 1).
    { cbn [ob]. rewrite app_length, rev_length. inversion Hr as [|? ? Ht _]; subst. destruct Ht as (Ht & _).
      destruct t; [congruence|]. pose proof (ob_pos r). unfold sep. destruct (Nat.eqb (length (ob r)) 1); cbn [length]; lia. }
    rewrite (proj2 (Nat.eqb_neq _ _) L). cbn [rev]. rewrite <- app_assoc. cbn [app].
    change (rev (ob (t :: r))) with (rev (ob (t :: r))). rewrite (IH Hr).
    unfold absolute. cbn [rev]. destruct (rev r ++ [t]) eqn:E; [destruct (rev r); discriminate|]. reflexivity.
Qed.

Lemma Clean_absolute p : clean false p [slash] = absolute (walk (elements p) []).
Proof.
  destruct (clean_walk (length p) p [] (le_n _) (Forall_nil _)) as [E G].
  change [slash] with (ob []). rewrite E, (rev_ob _ G), <- walk_r. reflexivity.
Qed.

Lemma place_good p : Forall good (place p).
Proof.
  unfold place. change (@nil bytes) with (rev (@nil bytes)). rewrite walk_r.
  destruct (clean_walk (length p) p [] (le_n _) (Forall_nil _)) as [_ G].
  rewrite Forall_forall in *. intros e He. apply G. apply in_rev. exact He.
Qed.

Lemma walk_slash p st : walk (elements (slash :: p)) st = walk (elements p) st.
Proof. reflexivity. Qed.

Lemma absolute_root es : Forall good es -> beqs (absolute es) [slash] = match es with [] => true | _ => false end.
Proof.
  destruct es as [|e es]; intros H; [reflexivity|]. apply beqs_false.
  inversion H as [|? ? He _]; subst. destruct He as (He & _). destruct e; [congruence|]. discriminate.
Qed.

Lemma last_cons (c d : ascii) p : ends_in_slash (c :: d :: p) = ends_in_slash (d :: p).
Proof.
  unfold ends_in_slash. cbn [rev]. destruct (rev p) as [|x l]; reflexivity.
Qed.

(** The clean path is the usual form. *)
Lemma cleanPath_usual p : cleanPath p = usual p.
Proof.
  destruct p as [|c p]; [reflexivity|].
  assert (Hp : Clean (if Ascii.eqb c slash then c :: p else slash :: c :: p) = absolute (place (c :: p))).
  { unfold place. destruct (Ascii.eqb_spec c slash) as [->|Hc]; unfold Clean; cbn [tl]; rewrite Clean_absolute; reflexivity. }
  assert (He : ends_in_slash (if Ascii.eqb c slash then c :: p else slash :: c :: p) = ends_in_slash (c :: p)).
  { destruct (Ascii.eqb c slash); [reflexivity|]. apply last_cons. }
  unfold cleanPath. cbv zeta. rewrite Hp, He, (absolute_root _ (place_good _)).
  unfold usual, ends_in_slash. destruct (rev (c :: p)) as [|x l] eqn:E.
  { cbn [rev] in E. destruct (rev p); discriminate. }
  destruct (place (c :: p)); [rewrite Bool.andb_false_r, app_nil_r; reflexivity|].
  rewrite Bool.andb_true_r. destruct (Ascii.eqb x slash); [reflexivity|rewrite app_nil_r; reflexivity].
Qed.

(** ** The usual form is its own usual form *)
Definition joined (es : list bytes) : bytes := concat (map (fun e => slash :: e) es).

Lemma walk_joined es : forall st t, Forall good es -> t = [] \/ t = [slash] -> walk (elements (joined es ++ t)) st = st ++ es.
Proof.
  induction es as [|e es IH]; intros st t Hg Ht.
  - destruct Ht as [->| ->]; cbn; rewrite app_nil_r; reflexivity.
  - inversion Hg as [|? ? He Hes]; subst.
    assert (Hr : rest_ok (joined es ++ t)).
    { destruct es as [|f es]; cbn; [destruct Ht as [->| ->]; [left; reflexivity|right; exists []; reflexivity]|right; eexists; reflexivity]. }
    change (joined (e :: es) ++ t) with (slash :: (e ++ joined es) ++ t). rewrite <- app_assoc, walk_slash.
    destruct He as (He1 & He2 & He3 & He4).
    rewrite (elements_app e _ He2 Hr). cbn [walk].
    rewrite (beqs_false _ _ He1), (beqs_false _ _ He3), (beqs_false _ _ He4). cbn [orb].
    specialize (IH (st ++ [e]) t Hes Ht). rewrite <- app_assoc in IH. cbn [app] in IH. rewrite <- IH.
    destruct (joined es ++ t) as [|x q] eqn:E; [reflexivity|].
    destruct Hr as [Hr|[q' Hr]]; [discriminate|]. injection Hr as -> ->. reflexivity.
Qed.

Lemma joined_last es e : good e -> exists l c, joined (es ++ [e]) = l ++ [c] /\ c <> slash.
Proof.
  intros (Hne & Hs & _). unfold joined. rewrite map_app, concat_app. cbn. rewrite app_nil_r.
  destruct (rev e) as [|c r] eqn:E.
  { exfalso. apply Hne. rewrite <- (rev_involutive e), E. reflexivity. }
  assert (Ee : e = rev r ++ [c]) by (rewrite <- (rev_involutive e), E; reflexivity).
  exists (concat (map (fun e => slash :: e) es) ++ slash :: rev r), c. split.
  - rewrite Ee, <- app_assoc. reflexivity.
  - unfold noslash in Hs. rewrite Forall_forall in Hs. apply Hs. rewrite Ee. apply in_or_app. right. left. reflexivity.
Qed.

Lemma usual_joined es t : es <> [] -> Forall good es -> t = [] \/ t = [slash] -> usual (joined es ++ t) = joined es ++ t.
Proof.
  intros Hne Hg Ht. unfold usual.
  assert (P : place (joined es ++ t) = es) by (unfold place; rewrite walk_joined by assumption; reflexivity).
  rewrite P. destruct es as [|e0 es0]; [congruence|].
  change (absolute (e0 :: es0)) with (joined (e0 :: es0)). f_equal.
  destruct Ht as [->| ->].
  - destruct (exists_last Hne) as (es1 & e1 & E). rewrite E in *.
    destruct (joined_last es1 e1) as (l & c & El & Hc).
    { rewrite Forall_forall in Hg. apply Hg. apply in_or_app. right. left. reflexivity. }
    rewrite El, app_nil_r, rev_app_distr. cbn [rev app].
    rewrite (proj2 (Ascii.eqb_neq c slash) Hc). destruct (es1 ++ [e1]); reflexivity.
  - rewrite rev_app_distr. reflexivity.
Qed.

Lemma usual_usual p : usual (usual p) = usual p.
Proof.
  unfold usual at 2 3. pose proof (place_good p) as G. destruct (place p) as [|e es] eqn:E.
  - reflexivity.
  - change (absolute (e :: es)) with (joined (e :: es)).
    apply usual_joined; [discriminate|exact G|].
    destruct (rev p) as [|c l]; [left; reflexivity|]. destruct (Ascii.eqb c slash); [right|left]; reflexivity.
Qed.

(** The places of a path in its usual form, read back. *)
Lemma place_usual p : place (usual p) = place p.
Proof.
  unfold usual. pose proof (place_good p) as G. destruct (place p) as [|e es] eqn:E.
  - reflexivity.
  - change (absolute (e :: es)) with (joined (e :: es)). unfold place at 1. rewrite walk_joined; [reflexivity|exact G|].
    destruct (rev p) as [|c l]; [left; reflexivity|]. destruct (Ascii.eqb c slash); [right|left]; reflexivity.
Qed.

(** ** Routes *)
Lemma existsb_in p ps : existsb (beqs p) ps = true <-> In p ps.
Proof.
  rewrite existsb_exists. split.
  - intros (x & Hx & E). apply beqs_eq in E. subst. exact Hx.
  - intros H. exists p. split; [exact H|apply beqs_refl].
Qed.

Lemma handler_cases ps p a : handler ps p = a -> (In p ps /\ a = Handled p) \/ (~ In p ps /\ a = NotFound).
Proof.
  unfold handler. intros <-. destruct (existsb (beqs p) ps) eqn:E.
  - left. split; [apply existsb_in; exact E|reflexivity].
  - right. split; [|reflexivity]. intros H. apply existsb_in in H. congruence.
Qed.

Lemma route_cases ps p :
  (usual p = p /\ In p ps /\ Route ps false p = Handled p) \/
  (usual p = p /\ ~ In p ps /\ Route ps false p = NotFound) \/
  (usual p <> p /\ Route ps false p = Moved (usual p)).
Proof.
  unfold Route. rewrite cleanPath_usual. destruct (beqs (usual p) p) eqn:E.
  - apply beqs_eq in E. destruct (handler_cases ps p _ eq_refl) as [[H1 H2]|[H1 H2]]; [left|right; left]; auto.
  - right. right. split; [|reflexivity]. intros H. rewrite H, beqs_refl in E. discriminate.
Qed.

Lemma handled_iff ps p x : Forall (fun q => usual q = q) ps -> (Route ps false p = Handled x <-> x = p /\ In p ps).
Proof.
  intros Hps. destruct (route_cases ps p) as [(U & Hi & ->)|[(U & Hi & ->)|(U & ->)]].
  - split; [intros H; injection H as <-; auto|intros [-> _]; reflexivity].
  - split; [discriminate|intros [_ H]; contradiction].
  - split; [discriminate|]. intros [_ H]. rewrite Forall_forall in Hps. elim U. apply Hps. exact H.
Qed.

Lemma moved_iff ps p x : Route ps false p = Moved x <-> x = usual p /\ usual p <> p.
Proof.
  destruct (route_cases ps p) as [(U & Hi & ->)|[(U & Hi & ->)|(U & ->)]].
  - split; [discriminate|intros [_ H]; contradiction].
  - split; [discriminate|intros [_ H]; contradiction].
  - split; [intros H; injection H as <-; auto|intros [-> _]; reflexivity].
Qed.

Lemma notfound_iff ps p : Route ps false p = NotFound <-> usual p = p /\ ~ In p ps.
Proof.
  destruct (route_cases ps p) as [(U & Hi & ->)|[(U & Hi & ->)|(U & ->)]].
  - split; [discriminate|intros [_ H]; contradiction].
  - split; auto.
  - split; [discriminate|intros [H _]; contradiction].
Qed.

Lemma connect_route ps p : Route ps true p = if existsb (beqs p) ps then Handled p else NotFound.
Proof. reflexivity. Qed.

(** The conversation: one answer, or a redirect and one answer. *)
Lemma follow_shape ps n q :
  follow ps n q =
    (q, Route ps (q_connect q) (q_path q)) ::
    match Route ps (q_connect q) (q_path q), n with
    | Moved _, S _ => let r := Req false (q_connect q) (usual (q_path q)) [] in [(r, handler ps (usual (q_path q)))]
    | _, _ => []
    end.
Proof.
  destruct n as [|n].
  - cbn [follow]. destruct (Route ps (q_connect q) (q_path q)); reflexivity.
  - cbn [follow]. destruct (Route ps (q_connect q) (q_path q)) as [x|x|] eqn:E; try reflexivity.
    destruct (q_connect q) eqn:Ec.
    { rewrite connect_route in E. destruct (existsb _ ps); discriminate. }
    apply moved_iff in E. destruct E as [-> _]. cbv zeta. f_equal.
    unfold redirected. rewrite Ec.
    assert (R : Route ps false (usual (q_path q)) = handler ps (usual (q_path q))).
    { unfold Route. rewrite cleanPath_usual, usual_usual, beqs_refl. reflexivity. }
    destruct n as [|n]; cbn [follow q_connect q_path]; rewrite R; unfold handler;
      destruct (existsb (beqs (usual (q_path q))) ps); reflexivity.
Qed.
