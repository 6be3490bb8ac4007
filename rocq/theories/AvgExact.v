(** A line is worth its fields, one at a time; a line torn off is worth the fields before the tear. *)
From Verif Require Import Base Text TextSpec TextProofs NumSpec Avg AvgSpec AvgProofs.
Local Open Scope Z_scope.

(** Lines added one after the other, with all their errors. *)
Fixpoint add_lines (fo : floatOps) (b : avgBucket fo) (ls : list bytes) : avgBucket fo * list lerr :=
  match ls with
  | [] => (b, [])
  | l :: ls' => let (b1, e1) := AddLine fo b l in let (b2, e2) := add_lines fo b1 ls' in (b2, e1 ++ e2)
  end.

Section S.
  Variable fo : floatOps.

  Lemma mset_mset {V} (m : list (bytes * V)) k v w : mset (mset m k v) k w = mset m k w.
  Proof.
    induction m as [|[a x] m IH]; cbn [mset]; [rewrite beqs_refl; auto|].
    destruct (beqs a k) eqn:E; cbn [mset]; rewrite E; auto. rewrite IH; auto.
  Qed.

  Lemma add_one b k f fields : good_point fo (k, [f]) -> mget b k = Some fields ->
    AddLine fo b (point_text (k, [f])) =
    let (fp, es) := put_field fo fields (fst f) (is_str (snd f)) (vraw (snd f)) in (mset b k fp, es).
  Proof.
    intros G M. destruct (point_parse fo _ G) as (raw & T & P). unfold AddLine. rewrite T. cbn [fst]. rewrite M.
    rewrite updateFields_parse, P. cbn [snd map put_all asg_of]. unfold asg_of. cbn [fst snd].
    destruct (put_field fo fields (fst f) (is_str (snd f)) (vraw (snd f))) as [fp es]. rewrite !app_nil_r. auto.
  Qed.

  Lemma good_one k fs f : good_point fo (k, fs) -> In f fs -> good_point fo (k, [f]).
  Proof.
    intros (Sh & _ & _ & F) I. rewrite Forall_forall in F. cbn [fst snd] in *. split; [auto|]. split; [discriminate|]. cbn [fst snd map].
    split; [repeat constructor; auto|]. constructor; auto.
  Qed.

  Lemma add_present k : forall fs b fields, (forall f, In f fs -> good_point fo (k, [f])) -> mget b k = Some fields ->
    add_lines fo b (map (fun f => point_text (k, [f])) fs) =
    let (fp, es) := put_all fo fields (map asg_of fs) in (mset b k fp, es).
  Proof.
    induction fs as [|f fs IH]; intros b fields G M; cbn [map add_lines put_all].
    - rewrite mset_same; auto.
    - rewrite (add_one b k f fields) by (auto; apply G; left; auto).
      unfold asg_of at 1. destruct (put_field fo fields (fst f) (is_str (snd f)) (vraw (snd f))) as [fp es].
      rewrite (IH _ fp); [|intros; apply G; right; auto|rewrite mget_mset, beqs_refl; auto].
      destruct (put_all fo fp (map asg_of fs)) as [fp2 es2]. rewrite mset_mset. auto.
  Qed.

  Lemma field_by_field b k fs : good_point fo (k, fs) ->
    AddLine fo b (point_text (k, fs)) = add_lines fo b (map (fun f => point_text (k, [f])) fs).
  Proof.
    intros G. destruct (point_parse fo _ G) as (raw & T & P). cbn [fst snd] in *.
    assert (G1 : forall f, In f fs -> good_point fo (k, [f])) by (intros; eapply good_one; eauto).
    unfold AddLine at 1. rewrite T. destruct (mget b k) as [fields|] eqn:M.
    - rewrite updateFields_parse, P, (add_present k fs b fields) by auto.
      destruct (put_all fo fields (map asg_of fs)). rewrite app_nil_r. auto.
    - destruct G as (_ & Ne & D & _). cbn [snd] in *. destruct fs as [|f fs]; [congruence|]. cbn [map add_lines].
      destruct (point_parse fo _ (G1 f (or_introl eq_refl))) as (raw1 & T1 & P1). cbn [fst snd map] in *.
      assert (A1 : AddLine fo b (point_text (k, [f])) =
        (mset b k (fst (put_field fo [] (fst f) (is_str (snd f)) (vraw (snd f)))), [])).
      { unfold AddLine. rewrite T1, M, updateFields_parse, P1. reflexivity. }
      rewrite A1. rewrite (add_present k fs _ (fst (put_field fo [] (fst f) (is_str (snd f)) (vraw (snd f)))));
        [|intros; apply G1; right; auto|rewrite mget_mset, beqs_refl; auto].
      rewrite updateFields_parse, P.
      pose proof (put_all_fresh fo (asg_of f :: map asg_of fs) []) as Fr.
      assert (Es : snd (put_all fo [] (asg_of f :: map asg_of fs)) = []).
      { apply Fr; [|reflexivity]. cbn [map]. rewrite map_map. exact D. }
      cbn [put_all] in *. unfold asg_of at 1. unfold asg_of in Es at 1.
      destruct (put_field fo [] (fst f) (is_str (snd f)) (vraw (snd f))) as [fp es] eqn:PF.
      assert (E0 : es = []) by (unfold put_field in PF; cbn [mget] in PF; congruence). subst es.
      cbn [fst app] in *. destruct (put_all fo fp (map asg_of fs)) as [fp2 es2]. cbn [snd app] in Es. subst es2. cbn [app].
      rewrite mset_mset. auto.
  Qed.

  (** The tail of a line after its last complete field. *)
  Lemma parse_tail : forall fs c g fuel, fs <> [] ->
    Forall (fun f => shielded eqs (fst f) /\ good_val fo (snd f)) fs -> ~ In eqs g ->
    (length (join_comma (map field_text fs) ++ comma :: g) < fuel)%nat ->
    parse_loop (S fuel) (c :: join_comma (map field_text fs) ++ comma :: g) = (map asg_of fs, [EInvalidField]).
  Proof.
    induction fs as [|[n v] fs IH]; intros c g fuel Ne F Hg L; [congruence|].
    inversion F as [|? ? [Sh G] F']; subst. cbn [fst snd] in Sh, G.
    assert (X : exists tl, join_comma (map field_text ((n, v) :: fs)) ++ comma :: g = n ++ eqs :: vtext v ++ comma :: tl /\
       (fs = [] /\ tl = g \/ fs <> [] /\ tl = join_comma (map field_text fs) ++ comma :: g)).
    { cbn [map]. unfold field_text at 1. cbn [fst snd]. destruct fs as [|f fs].
      - exists g. cbn [map join_comma]. rewrite <- app_assoc. auto.
      - exists (join_comma (map field_text (f :: fs)) ++ comma :: g). split; [|right; split; [discriminate|auto]].
        cbn [map join_comma]. rewrite <- !app_assoc. cbn [app]. repeat (rewrite <- app_assoc; cbn [app]). auto. }
    destruct X as (tl & Ej & Htl). rewrite Ej in *. cbn [parse_loop].
    change (lit "=") with [eqs]. rewrite shielded_token by auto. rewrite Ascii.eqb_refl. cbn [negb].
    rewrite app_length in L. cbn [length] in L. rewrite app_length in L. cbn [length] in L.
    assert (R : parse_loop fuel (comma :: tl) = (map asg_of fs, [EInvalidField])).
    { destruct Htl as [[-> ->]|[Nf ->]].
      - destruct fuel; [lia|]. cbn [parse_loop map]. change (lit "=") with [eqs].
        replace (TokenEscaped [eqs] g) with (g, @nil ascii); [reflexivity|].
        symmetry. destruct (TokenEscaped [eqs] g) as [t r] eqn:Et.
        assert (Er : t ++ r = g /\ (r = [] \/ exists r', r = eqs :: r')).
        { split; [eapply TokenEscaped_split; eauto|].
          destruct (TokenEscaped_rest _ _ _ _ Et) as [->|(d & r' & -> & [<-|[]] & _)]; eauto. }
        destruct Er as [Eg [->|[r' ->]]]; [rewrite app_nil_r in Eg; subst; auto|].
        exfalso. apply Hg. rewrite <- Eg. apply in_or_app. right. left. auto.
      - destruct fuel as [|fuel]; [lia|]. apply IH; auto. lia. }
    destruct (is_str v) eqn:Es.
    - destruct v as [| |s|]; try discriminate. cbn [vtext app]. rewrite Ascii.eqb_refl.
      cbn [good_val] in G. destruct G as (G1 & G2 & _). pose proof (proj2 (quoted_roundtrip_iff s (comma :: tl)) (conj G1 G2)) as G. rewrite EscapeQuoted_spec in G.
      cbn [app] in G. rewrite G, R. reflexivity.
    - destruct (vtext_bare fo v G Es) as [Bv Ev]. pose proof Bv as (Nv & _ & Nq).
      assert (Tk : Token (lit ",") (vtext v ++ comma :: tl) = (vtext v, comma :: tl)) by (apply bare_token; auto).
      destruct (vtext v ++ comma :: tl) as [|d r] eqn:Ed; [destruct (vtext v); [congruence|discriminate]|].
      assert (Nd : Ascii.eqb d dq = false).
      { apply Ascii.eqb_neq. intros ->. destruct (vtext v) as [|x xs]; [congruence|]. inversion Ed; subst. eapply Nq; eauto. }
      rewrite Nd. rewrite Tk, R. cbn [map]. unfold asg_of at 2. cbn [fst snd]. rewrite Es, Ev. auto.
  Qed.

  Lemma torn_line b k fs g fields : good_point fo (k, fs) -> mget b k = Some fields -> ~ In eqs g ->
    fst (AddLine fo b (point_text (k, fs) ++ comma :: g)) = fst (AddLine fo b (point_text (k, fs))) /\
    snd (AddLine fo b (point_text (k, fs) ++ comma :: g)) <> [].
  Proof.
    intros G M Hg. destruct (point_parse fo _ G) as (raw & T & P). destruct G as (Sh & Ne & D & F). cbn [fst snd] in *.
    unfold AddLine. rewrite T, M, updateFields_parse, P.
    unfold point_text. cbn [fst snd]. rewrite <- app_assoc. cbn [app]. change (lit " ") with [sp]. rewrite shielded_token by auto. rewrite M.
    rewrite updateFields_parse. unfold parse_fields. rewrite parse_tail by (auto; cbn [length]; lia).
    destruct (put_all fo fields (map asg_of fs)) as [fp es]. cbn [fst snd]. split; auto. intros E.
    apply app_eq_nil in E. destruct E; discriminate.
  Qed.
End S.
