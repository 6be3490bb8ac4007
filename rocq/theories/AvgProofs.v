(** Proofs about the averaging bucket. *)
From Verif Require Import Base Text TextSpec TextProofs Convert NumSpec NumProofs Avg AvgSpec RulesSpec RulesProofs.
Local Open Scope Z_scope.

(* ---------------------------------------------------------------- *)
(** * Maps *)
Section Map.
  Context {V : Type}.
  Implicit Types m : list (bytes * V).

  Lemma mget_mset m k v k' : mget (mset m k v) k' = if beqs k k' then Some v else mget m k'.
  Proof.
    induction m as [|[a x] m IH]; cbn [mset mget]; auto.
    destruct (beqs a k) eqn:E; cbn [mget].
    - apply beqs_eq in E. subst a. destruct (beqs k k'); auto.
    - rewrite IH. destruct (beqs a k') eqn:E'; auto.
      apply beqs_eq in E'. subst a. apply beqs_neq in E. destruct (beqs k k') eqn:E2; auto.
      apply beqs_eq in E2. congruence.
  Qed.

  Lemma mset_keys m k v x : In x (map fst (mset m k v)) <-> x = k \/ In x (map fst m).
  Proof.
    induction m as [|[a y] m IH]; cbn [mset map fst In].
    - intuition.
    - destruct (beqs a k) eqn:E; cbn [map fst In].
      + apply beqs_eq in E. subst. intuition.
      + rewrite IH. intuition.
  Qed.

  Lemma mset_nodup m k v : NoDup (map fst m) -> NoDup (map fst (mset m k v)).
  Proof.
    induction m as [|[a y] m IH]; cbn [mset map fst]; intros H.
    - constructor; auto; constructor.
    - inversion H as [|? ? N D]; subst. destruct (beqs a k) eqn:E; cbn [map fst]; auto.
      constructor; auto. rewrite mset_keys. intros [->|I]; auto. rewrite beqs_refl in E. discriminate.
  Qed.

  Lemma mget_In m k v : mget m k = Some v -> In (k, v) m.
  Proof.
    induction m as [|[a y] m IH]; cbn [mget]; [discriminate|]. destruct (beqs a k) eqn:E.
    - apply beqs_eq in E. intros H; inversion H; subst. simpl; auto.
    - intros H. right. auto.
  Qed.

  Lemma mget_nodup m k v : NoDup (map fst m) -> In (k, v) m -> mget m k = Some v.
  Proof.
    induction m as [|[a y] m IH]; cbn [map fst mget]; intros D I; [contradiction|].
    inversion D as [|? ? N D']; subst. destruct I as [I|I].
    - inversion I; subst. rewrite beqs_refl. auto.
    - destruct (beqs a k) eqn:E; auto. apply beqs_eq in E. subst. exfalso. apply N. apply in_map_iff. exists (k, v). auto.
  Qed.

  Lemma mget_None m k : mget m k = None <-> ~ In k (map fst m).
  Proof.
    induction m as [|[a y] m IH]; cbn [mget map fst In]; [intuition|].
    destruct (beqs a k) eqn:E.
    - apply beqs_eq in E. subst. split; [discriminate|]. intros H. exfalso. auto.
    - apply beqs_neq in E. rewrite IH. intuition.
  Qed.
End Map.

(* ---------------------------------------------------------------- *)
(** * The fields of a line do not depend on the state *)
Section Avg.
  Variable fo : floatOps.

  (** A field assignment: name, quoted, text. *)
  Definition asg := (bytes * bool * bytes)%type.

  (** The assignments of the field section of a line, and the error that ends it. *)
  Fixpoint parse_loop (fuel : nat) (raw : bytes) : list asg * list lerr :=
    match fuel with
    | O => ([], [])
    | S f =>
        match raw with
        | [] => ([], [])
        | _ :: raw1 =>
            let (name, raw2) := TokenEscaped (lit "=") raw1 in
            match raw2 with
            | [] => ([], [EInvalidField])
            | c :: raw3 =>
                if negb (Ascii.eqb c eqs) then ([], [EInvalidField])
                else
                  match raw3 with
                  | [] => ([], [EMissingValue])
                  | d :: _ =>
                      if Ascii.eqb d dq then
                        match QuotedString raw3 with
                        | QOk value raw4 => let (l, e) := parse_loop f raw4 in ((name, true, value) :: l, e)
                        | _ => ([], [EQuoted])
                        end
                      else
                        let (value, raw4) := Token (lit ",") raw3 in
                        let (l, e) := parse_loop f raw4 in ((name, false, value) :: l, e)
                  end
            end
        end
    end.
  Definition parse_fields (raw : bytes) := parse_loop (S (length raw)) raw.

  Fixpoint put_all (fp : fieldPairs fo) (l : list asg) : fieldPairs fo * list lerr :=
    match l with
    | [] => (fp, [])
    | (n, q, v) :: l' =>
        let (fp1, e1) := put_field fo fp n q v in
        let (fp2, e2) := put_all fp1 l' in (fp2, e1 ++ e2)
    end.

  Lemma update_loop_parse fuel : forall fp raw, update_loop fo fuel fp raw =
    let (l, e) := parse_loop fuel raw in let (fp', es) := put_all fp l in (fp', es ++ e).
  Proof.
    induction fuel as [|f IH]; intros fp raw; [reflexivity|]. cbn [update_loop parse_loop].
    destruct raw as [|c0 raw1]; [reflexivity|].
    destruct (TokenEscaped (lit "=") raw1) as [name raw2]. destruct raw2 as [|c raw3]; [reflexivity|].
    destruct (negb (Ascii.eqb c eqs)); [reflexivity|]. destruct raw3 as [|d raw3']; [reflexivity|].
    destruct (Ascii.eqb d dq).
    - destruct (QuotedString (d :: raw3')) as [value raw4| | |]; try reflexivity.
      destruct (parse_loop f raw4) as [l e] eqn:P. cbn [put_all].
      destruct (put_field fo fp name true value) as [fp1 e1]. rewrite IH, P.
      destruct (put_all fp1 l) as [fp2 e2]. rewrite app_assoc. auto.
    - destruct (Token (lit ",") (d :: raw3')) as [value raw4].
      destruct (parse_loop f raw4) as [l e] eqn:P. cbn [put_all].
      destruct (put_field fo fp name false value) as [fp1 e1]. rewrite IH, P.
      destruct (put_all fp1 l) as [fp2 e2]. rewrite app_assoc. auto.
  Qed.

  Lemma updateFields_parse fp raw : updateFields fo fp raw =
    let (l, e) := parse_fields raw in let (fp', es) := put_all fp l in (fp', es ++ e).
  Proof. apply update_loop_parse. Qed.

  (** Every iteration consumes, so that the fuel does not matter. *)
  Lemma quoted_len s v r : QuotedString s = QOk v r -> (length r < length s)%nat.
  Proof.
    unfold QuotedString. destruct s as [|a [|b s]]; try discriminate. destruct (Ascii.eqb a dq); [|discriminate].
    intros H. apply quoted_scan_rest_len in H. simpl in *. lia.
  Qed.

  Lemma TokenEscaped_len until s t r : TokenEscaped until s = (t, r) -> (length r <= length s)%nat.
  Proof. intros H. apply TokenEscaped_split in H. subst s. rewrite app_length. lia. Qed.

  Lemma parse_loop_fuel : forall f1 f2 raw, (length raw < f1)%nat -> (length raw < f2)%nat -> parse_loop f1 raw = parse_loop f2 raw.
  Proof.
    induction f1 as [|f1 IH]; intros [|f2] raw L1 L2; try lia. cbn [parse_loop].
    destruct raw as [|c0 raw1]; auto. cbn [length] in *.
    destruct (TokenEscaped (lit "=") raw1) as [name raw2] eqn:ET. apply TokenEscaped_len in ET.
    destruct raw2 as [|c raw3]; auto. destruct (negb (Ascii.eqb c eqs)); auto. destruct raw3 as [|d raw3']; auto.
    cbn [length] in *. destruct (Ascii.eqb d dq).
    - destruct (QuotedString (d :: raw3')) as [value raw4| | |] eqn:EQ; auto. apply quoted_len in EQ. cbn [length] in EQ.
      rewrite (IH f2) by lia. auto.
    - destruct (Token (lit ",") (d :: raw3')) as [value raw4] eqn:EQ. apply Token_len in EQ. cbn [length] in EQ.
      rewrite (IH f2) by lia. auto.
  Qed.

  (* -------------------------------------------------------------- *)
  (** * What a field holds *)

  Definition create (q : bool) (v : bytes) : fieldValue fo := if q then VString fo v else newFieldValue fo v.
  Definition step_val (o : option (fieldValue fo)) (qv : bool * bytes) : option (fieldValue fo) :=
    match o with
    | None => Some (create (fst qv) (snd qv))
    | Some x => match updateValue fo x (snd qv) with Some y => Some y | None => Some x end
    end.
  Definition for_name (n : bytes) (l : list asg) : list (bool * bytes) :=
    flat_map (fun a : asg => if beqs (fst (fst a)) n then [(snd (fst a), snd a)] else []) l.

  Lemma put_field_get fp n q v n' : mget (fst (put_field fo fp n q v)) n' =
    if beqs n n' then step_val (mget fp n') (q, v) else mget fp n'.
  Proof.
    unfold put_field, step_val, create. cbn [fst snd].
    destruct (beqs n n') eqn:E.
    - apply beqs_eq in E. subst n'. destruct (mget fp n) as [x|] eqn:G.
      + destruct (updateValue fo x v) as [y|]; cbn [fst]; [|auto]. rewrite mget_mset, beqs_refl. auto.
      + cbn [fst]. rewrite mget_mset, beqs_refl. auto.
    - destruct (mget fp n) as [x|].
      + destruct (updateValue fo x v) as [y|]; cbn [fst]; [|auto]. rewrite mget_mset, E. auto.
      + cbn [fst]. rewrite mget_mset, E. auto.
  Qed.

  Lemma put_all_get l : forall fp n, mget (fst (put_all fp l)) n = fold_left step_val (for_name n l) (mget fp n).
  Proof.
    induction l as [|[[a q] v] l IH]; intros fp n; [reflexivity|]. cbn [put_all for_name flat_map fst snd].
    fold (for_name n l). pose proof (put_field_get fp a q v n) as P.
    destruct (put_field fo fp a q v) as [fp1 e1]. cbn [fst] in P. specialize (IH fp1 n).
    destruct (put_all fp1 l) as [fp2 e2]. cbn [fst] in *. rewrite IH, P.
    destruct (beqs a n); auto.
  Qed.

  Lemma put_field_nodup fp n q v : NoDup (map fst fp) -> NoDup (map fst (fst (put_field fo fp n q v))).
  Proof.
    intros H. unfold put_field. destruct (mget fp n); [destruct (updateValue fo f v)|]; cbn [fst]; auto using mset_nodup.
  Qed.

  Lemma put_all_nodup l : forall fp, NoDup (map fst fp) -> NoDup (map fst (fst (put_all fp l))).
  Proof.
    induction l as [|[[a q] v] l IH]; intros fp H; auto. cbn [put_all].
    pose proof (put_field_nodup fp a q v H) as H1. destruct (put_field fo fp a q v) as [fp1 e1].
    specialize (IH fp1 H1). destruct (put_all fp1 l) as [fp2 e2]. auto.
  Qed.

  (** Distinct names into fields that are not there: no error. *)
  Lemma put_all_fresh l : forall fp, NoDup (map (fun a => fst (fst a)) l) ->
    (forall a, In a l -> mget fp (fst (fst a)) = None) -> snd (put_all fp l) = [].
  Proof.
    induction l as [|[[a q] v] l IH]; intros fp D H; auto. cbn [put_all].
    cbn [map fst] in D. inversion D as [|? ? N D']; subst.
    pose proof (put_field_get fp a q v) as P. pose proof (H (a, q, v) (or_introl eq_refl)) as G. cbn [fst] in G.
    destruct (put_field fo fp a q v) as [fp1 e1] eqn:EP. cbn [fst] in P.
    assert (E1 : e1 = []) by (unfold put_field in EP; rewrite G in EP; congruence). subst e1. clear EP.
    specialize (IH fp1 D'). destruct (put_all fp1 l) as [fp2 e2]. cbn [snd] in *. cbn [app].
    apply IH. intros b I. rewrite P. destruct (beqs a (fst (fst b))) eqn:E.
    - apply beqs_eq in E. exfalso. apply N. rewrite E. apply in_map_iff. exists b. auto.
    - apply H. simpl; auto.
  Qed.

  (* -------------------------------------------------------------- *)
  (** * AddLine *)

  Definition bucket_wf (b : avgBucket fo) : Prop :=
    NoDup (map fst b) /\ Forall (fun s => NoDup (map fst (snd s))) b.

  Lemma Forall_mset (P : bytes * fieldPairs fo -> Prop) (b : avgBucket fo) k v : Forall P b -> P (k, v) -> Forall P (mset b k v).
  Proof.
    induction 1 as [|[a x] b Hx F IH]; intros Hk; cbn [mset]; [constructor; auto|].
    destruct (beqs a k) eqn:E; constructor; auto. apply beqs_eq in E. subst. auto.
  Qed.

  Lemma updateFields_nodup fp raw : NoDup (map fst fp) -> NoDup (map fst (fst (updateFields fo fp raw))).
  Proof.
    intros H. rewrite updateFields_parse. destruct (parse_fields raw) as [l e].
    pose proof (put_all_nodup l fp H). destruct (put_all fp l); auto.
  Qed.

  Lemma AddLine_wf b line : bucket_wf b -> bucket_wf (fst (AddLine fo b line)).
  Proof.
    intros [D F]. unfold AddLine. destruct (TokenEscaped (lit " ") line) as [key raw].
    destruct (mget b key) as [fields|] eqn:G.
    - apply mget_In in G. pose proof (proj1 (Forall_forall _ _) F _ G) as N. cbn [snd] in N.
      pose proof (updateFields_nodup fields raw N) as N'. destruct (updateFields fo fields raw) as [f' errs].
      cbn [fst] in *. split; [apply mset_nodup; auto|]. apply Forall_mset; auto.
    - pose proof (updateFields_nodup [] raw (NoDup_nil _)) as N'. destruct (updateFields fo [] raw) as [f' errs].
      destruct errs; cbn [fst] in *; [|split; auto]. split; [apply mset_nodup; auto|]. apply Forall_mset; auto.
  Qed.

  (** A rejected line of an unknown series changes nothing. *)
  Lemma reject_unknown b line : mget b (fst (TokenEscaped (lit " ") line)) = None ->
    snd (AddLine fo b line) <> [] -> fst (AddLine fo b line) = b.
  Proof.
    unfold AddLine. destruct (TokenEscaped (lit " ") line) as [key raw]. cbn [fst]. intros ->.
    destruct (updateFields fo [] raw) as [f' errs]. destruct errs; auto. cbn [snd]. congruence.
  Qed.

  (** Other series are never touched. *)
  Lemma other_series b line k : k <> fst (TokenEscaped (lit " ") line) -> mget (fst (AddLine fo b line)) k = mget b k.
  Proof.
    unfold AddLine. destruct (TokenEscaped (lit " ") line) as [key raw]. cbn [fst]. intros N.
    assert (X : beqs key k = false) by (apply beqs_neq; congruence).
    destruct (mget b key) as [fields|] eqn:G.
    - destruct (updateFields fo fields raw) as [f' errs]. cbn [fst]. rewrite mget_mset, X. auto.
    - destruct (updateFields fo [] raw) as [f' errs]. destruct errs; cbn [fst]; auto. rewrite mget_mset, X. auto.
  Qed.

  Lemma mset_same {V} (m : list (bytes * V)) k v : mget m k = Some v -> mset m k v = m.
  Proof.
    induction m as [|[a x] m IH]; cbn [mget mset]; [discriminate|]. destruct (beqs a k) eqn:E.
    - intros H; inversion H; auto.
    - intros H. rewrite IH; auto.
  Qed.

  (** A line with at most one field that is rejected changes nothing. *)
  Lemma reject_single b line l e : parse_fields (snd (TokenEscaped (lit " ") line)) = (l, e) ->
    (length l <= 1)%nat -> e = [] \/ l = [] ->
    snd (AddLine fo b line) <> [] -> fst (AddLine fo b line) = b.
  Proof.
    unfold AddLine. destruct (TokenEscaped (lit " ") line) as [key raw]. cbn [fst snd]. intros P L C.
    destruct (mget b key) as [fields|] eqn:G; rewrite updateFields_parse, P; intros Ne.
    - destruct l as [|[[n q] v] [|? ?]]; cbn [length put_all] in *; try lia.
      + cbn [fst]. apply mset_same; auto.
      + destruct C as [->|C]; [|discriminate]. unfold put_field in *.
        destruct (mget fields n) as [x|] eqn:Gf; [destruct (updateValue fo x v) as [y|]|]; cbn [app snd fst] in *; try congruence.
        apply mset_same; auto.
    - destruct (put_all [] l) as [f' es]. destruct (es ++ e); auto. cbn [snd] in Ne. congruence.
  Qed.

  (** What a line does to its series. *)
  Lemma AddLine_series b line key raw l e n : TokenEscaped (lit " ") line = (key, raw) -> parse_fields raw = (l, e) ->
    mget b key <> None ->
    exists fields, mget (fst (AddLine fo b line)) key = Some fields /\
      mget fields n = fold_left step_val (for_name n l) (match mget b key with Some f => mget f n | None => None end).
  Proof.
    intros T P G. unfold AddLine. rewrite T. destruct (mget b key) as [f|] eqn:Gk; [|congruence].
    rewrite updateFields_parse, P. pose proof (put_all_get l f n) as X. destruct (put_all f l) as [f' es]. cbn [fst] in *.
    exists f'. rewrite mget_mset, beqs_refl. auto.
  Qed.

  (* -------------------------------------------------------------- *)
  (** * Points *)

  Lemma bare_token s r : bare s -> Token (lit ",") (s ++ comma :: r) = (s, comma :: r).
  Proof.
    intros (N & C & _). assert (Cc : ~ In comma s) by (apply C; simpl; auto). assert (Bs : ~ In bsl s) by (apply C; simpl; auto).
    rewrite Token_spec. change (lit ",") with [comma].
    rewrite TokenEscaped_unique; auto; [| simpl; auto | |].
    - cbn [fst snd]. f_equal. unfold Unescape. replace (memb s bsl) with false; auto. symmetry. apply memb_false; auto.
    - intros [p ->]. apply Bs. apply in_or_app; simpl; auto.
    - intros p x q -> _ [<-|[]]. exfalso. apply Cc. apply in_or_app; simpl; auto.
  Qed.

  Lemma bare_token_end s : bare s -> Token (lit ",") s = (s, []).
  Proof.
    intros (N & C & _). assert (Cc : ~ In comma s) by (apply C; simpl; auto). assert (Bs : ~ In bsl s) by (apply C; simpl; auto).
    rewrite Token_spec. change (lit ",") with [comma].
    destruct (TokenEscaped [comma] s) as [t r] eqn:E. cbn [fst snd].
    pose proof (TokenEscaped_split _ _ _ _ E) as Sp. pose proof (TokenEscaped_rest _ _ _ _ E) as R.
    destruct R as [->|(d & r' & -> & [<-|[]] & _)].
    - rewrite app_nil_r in Sp. subst. f_equal. unfold Unescape. replace (memb s bsl) with false; auto. symmetry. apply memb_false; auto.
    - exfalso. apply Cc. rewrite <- Sp. apply in_or_app; simpl; auto.
  Qed.

  Lemma shielded_token d s r : shielded d s -> TokenEscaped [d] (s ++ d :: r) = (s, d :: r).
  Proof.
    intros (N & Bs & H). apply TokenEscaped_unique; simpl; auto.
    intros p x q E Np [<-|[]]. eauto.
  Qed.

  Lemma digit_not c : is_digit c -> ~ In c [comma; bsl; dq; "i"%char; sp; eqs; nl].
  Proof. intros D H. simpl in H. unfold is_digit in D. repeat (destruct H as [<-|H]; [vm_compute in D; intuition congruence|]). contradiction. Qed.

  Lemma int_text_chars t z c : int_text t z -> In c [comma; bsl; dq; "i"%char; sp; eqs; nl] -> ~ In c t.
  Proof.
    intros T Hc I. inversion T as [ds [Nd F] | ds [Nd F]]; subst.
    - apply (digit_not c); auto. eapply Forall_forall; eauto.
    - destruct I as [<-|I].
      + simpl in Hc. repeat (destruct Hc as [Hc|Hc]; [discriminate|]). contradiction.
      + apply (digit_not c); auto. eapply Forall_forall; eauto.
  Qed.

  Lemma int_text_ne t z : int_text t z -> t <> [].
  Proof. intros T. inversion T as [ds [Nd F] | ds [Nd F]]; subst; auto. discriminate. Qed.

  Lemma bare_int t z : int_text t z -> bare (t ++ lit "i").
  Proof.
    intros T. assert (Ne := int_text_ne _ _ T). split; [destruct t; discriminate|].
    assert (X : forall c, In c [comma; bsl; dq; sp; eqs; nl] -> ~ In c (t ++ lit "i")).
    { intros c Hc I. apply in_app_or in I. destruct I as [I|I].
      - revert I. eapply int_text_chars; eauto. simpl in *. intuition.
      - simpl in *. intuition; subst; discriminate. }
    split; [intros c Hc; apply X; simpl in *; intuition|].
    intros r E. assert (I : In dq (t ++ lit "i")) by (rewrite E; simpl; auto). revert I. apply X. simpl; auto.
  Qed.

  Lemma vtext_bare v : good_val fo v -> is_str v = false -> bare (vtext v) /\ vraw v = vtext v.
  Proof.
    destruct v; cbn [good_val is_str vtext vraw]; intros G H; try discriminate; split; auto; try tauto.
    eapply bare_int; apply G.
  Qed.

  Definition asg_of (f : bytes * fval) : asg := (fst f, is_str (snd f), vraw (snd f)).

  Lemma parse_points : forall fs c fuel, fs <> [] ->
    Forall (fun f => shielded eqs (fst f) /\ good_val fo (snd f)) fs ->
    (length (join_comma (map field_text fs)) < fuel)%nat ->
    parse_loop (S fuel) (c :: join_comma (map field_text fs)) = (map asg_of fs, []).
  Proof.
    induction fs as [|[n v] fs IH]; intros c fuel Ne F L; [congruence|].
    inversion F as [|? ? [Sh G] F']; subst. cbn [fst snd] in Sh, G.
    assert (X : exists tl, join_comma (map field_text ((n, v) :: fs)) = n ++ eqs :: vtext v ++ tl /\
       (fs = [] /\ tl = [] \/ fs <> [] /\ tl = comma :: join_comma (map field_text fs))).
    { cbn [map]. unfold field_text at 1. cbn [fst snd]. destruct fs as [|f fs].
      - exists []. cbn [map join_comma]. rewrite app_nil_r. auto.
      - exists (comma :: join_comma (map field_text (f :: fs))). split; [|right; split; [discriminate|auto]].
        cbn [map join_comma]. rewrite <- app_assoc. auto. }
    destruct X as (tl & Ej & Htl). rewrite Ej in *. cbn [parse_loop].
    change (lit "=") with [eqs]. rewrite shielded_token by auto. rewrite Ascii.eqb_refl. cbn [negb].
    rewrite app_length in L. cbn [length] in L. rewrite app_length in L.
    assert (R : parse_loop fuel tl = (map asg_of fs, [])).
    { destruct Htl as [[-> ->]|[Nf ->]].
      - destruct fuel; [lia|]. reflexivity.
      - cbn [length] in L. destruct fuel as [|fuel]; [lia|]. apply IH; auto. lia. }
    destruct (is_str v) eqn:Es.
    - destruct v as [| |s|]; try discriminate. cbn [vtext app]. rewrite Ascii.eqb_refl.
      cbn [good_val] in G. destruct G as (G1 & G2 & _). pose proof (proj2 (quoted_roundtrip_iff s tl) (conj G1 G2)) as G. rewrite EscapeQuoted_spec in G.
      cbn [app] in G. rewrite G, R. reflexivity.
    - destruct (vtext_bare v G Es) as [Bv Ev]. pose proof Bv as (Nv & _ & Nq).
      assert (Tk : Token (lit ",") (vtext v ++ tl) = (vtext v, tl)).
      { destruct Htl as [[-> ->]|[Nf ->]]; [rewrite app_nil_r; apply bare_token_end; auto | apply bare_token; auto]. }
      destruct (vtext v ++ tl) as [|d r] eqn:Ed; [destruct (vtext v); [congruence|discriminate]|].
      assert (Nd : Ascii.eqb d dq = false).
      { apply Ascii.eqb_neq. intros ->. destruct (vtext v) as [|x xs]; [congruence|]. inversion Ed; subst. eapply Nq; eauto. }
      rewrite Nd. rewrite Tk, R. cbn [map]. unfold asg_of at 2. cbn [fst snd]. rewrite Es, Ev. auto.
  Qed.

  Lemma point_parse pt : good_point fo pt ->
    exists raw, TokenEscaped (lit " ") (point_text pt) = (fst pt, raw) /\ parse_fields raw = (map asg_of (snd pt), []).
  Proof.
    intros (Sh & Ne & D & F). exists (sp :: join_comma (map field_text (snd pt))). split.
    - unfold point_text. change (lit " ") with [sp]. apply shielded_token; auto.
    - unfold parse_fields. apply parse_points; auto.
  Qed.

  (** The bucket after a list of points. *)
  Definition bucket_of (pts : list point) : avgBucket fo :=
    fold_left (fun b pt => fst (AddLine fo b (point_text pt))) pts [].

  Lemma for_name_asg n fs : for_name n (map asg_of fs) =
    map (fun v => (is_str v, vraw v)) (flat_map (fun f : bytes * fval => if beqs (fst f) n then [snd f] else []) fs).
  Proof.
    induction fs as [|[a v] fs IH]; auto. cbn [map]. unfold for_name. cbn [flat_map]. unfold asg_of at 1 2 3. cbn [fst snd].
    fold (for_name n (map asg_of fs)). rewrite IH. destruct (beqs a n); auto.
  Qed.

  Definition field_in (b : avgBucket fo) (k n : bytes) : option (fieldValue fo) :=
    match mget b k with Some f => mget f n | None => None end.

  Lemma add_point_field b pt k n : good_point fo pt ->
    field_in (fst (AddLine fo b (point_text pt))) k n =
    fold_left step_val (map (fun v => (is_str v, vraw v)) (values k n [pt])) (field_in b k n).
  Proof.
    intros G. destruct (point_parse pt G) as (raw & T & P). unfold field_in, values. cbn [flat_map]. rewrite app_nil_r.
    destruct (beqs (fst pt) k) eqn:E.
    - apply beqs_eq in E. subst k. rewrite <- for_name_asg.
      unfold AddLine. rewrite T. destruct (mget b (fst pt)) as [f|] eqn:Gk; rewrite updateFields_parse, P.
      + pose proof (put_all_get (map asg_of (snd pt)) f n) as X. destruct (put_all f (map asg_of (snd pt))) as [f' es].
        cbn [fst] in *. rewrite mget_mset, beqs_refl. auto.
      + pose proof (put_all_get (map asg_of (snd pt)) [] n) as X.
        pose proof (put_all_fresh (map asg_of (snd pt)) []) as Y.
        destruct (put_all [] (map asg_of (snd pt))) as [f' es]. cbn [fst snd] in *. rewrite Y.
        * cbn [app fst]. rewrite mget_mset, beqs_refl. auto.
        * rewrite map_map. cbn [asg_of fst]. apply G.
        * auto.
    - cbn [map fold_left]. rewrite other_series; auto. rewrite T. cbn [fst]. apply beqs_neq in E. auto.
  Qed.

  Lemma values_app k n a b : values k n (a ++ b) = values k n a ++ values k n b.
  Proof. apply flat_map_app. Qed.

  (** Everything a field holds is determined by the values given for it, in order. *)
  Lemma field_history pts k n : Forall (good_point fo) pts ->
    field_in (bucket_of pts) k n = fold_left step_val (map (fun v => (is_str v, vraw v)) (values k n pts)) None.
  Proof.
    induction pts as [|pt pts IH] using rev_ind; intros F; [reflexivity|].
    apply Forall_app in F. destruct F as [F1 F2]. inversion F2; subst.
    unfold bucket_of. rewrite fold_left_app. cbn [fold_left]. fold (bucket_of pts).
    rewrite add_point_field by auto. rewrite IH by auto. rewrite values_app, map_app, fold_left_app. auto.
  Qed.

  (** A series is present exactly when some point has that key. *)
  Lemma series_present pts k : Forall (good_point fo) pts ->
    (mget (bucket_of pts) k <> None <-> exists pt, In pt pts /\ fst pt = k).
  Proof.
    induction pts as [|pt pts IH] using rev_ind; intros F.
    { cbn. split; [congruence|]. intros (? & [] & _). }
    apply Forall_app in F. destruct F as [F1 F2]. inversion F2 as [|? ? G _]; subst. specialize (IH F1).
    unfold bucket_of. rewrite fold_left_app. cbn [fold_left]. fold (bucket_of pts).
    destruct (point_parse pt G) as (raw & T & P).
    destruct (list_eq_dec ascii_dec k (fst pt)) as [->|N].
    - split; [intros _; exists pt; split; auto; apply in_or_app; simpl; auto|]. intros _.
      unfold AddLine. rewrite T. destruct (mget (bucket_of pts) (fst pt)) as [f|] eqn:Gk; rewrite updateFields_parse, P.
      + destruct (put_all f (map asg_of (snd pt))) as [f' es]. cbn [fst]. rewrite mget_mset, beqs_refl. discriminate.
      + pose proof (put_all_fresh (map asg_of (snd pt)) []) as Y.
        destruct (put_all [] (map asg_of (snd pt))) as [f' es]. cbn [snd] in Y. rewrite Y.
        * cbn [app fst]. rewrite mget_mset, beqs_refl. discriminate.
        * rewrite map_map. cbn [asg_of fst]. apply G.
        * auto.
    - rewrite other_series by (rewrite T; cbn [fst]; auto). rewrite IH. split; intros (pt' & I & E); exists pt'; split; auto.
      + apply in_or_app; auto.
      + apply in_app_or in I. destruct I as [I|[<-|[]]]; auto. congruence.
  Qed.

  Lemma bucket_of_wf pts : bucket_wf (bucket_of pts).
  Proof.
    induction pts as [|pt pts IH] using rev_ind; [split; constructor|].
    unfold bucket_of. rewrite fold_left_app. cbn [fold_left]. apply AddLine_wf. auto.
  Qed.
End Avg.
