(** How large the filter's messages can become. *)
From Verif Require Import Base Text TextSpec TextProofs NumSpec LinesSpec Rules RulesSpec RulesProofs RouteProofs FilterWorker FilterSpec FilterProofs.
Local Open Scope nat_scope.

(** Bytes published. *)
Definition total_bytes (ms : list (bytes * bytes)) : nat := list_sum (map (fun p => length (snd p)) ms).

(** The line is in the form the filter itself writes. *)
Definition canonical (line : bytes) : Prop :=
  exists m tags rest, rest <> [] /\ good_measurement m /\ Forall good_tag tags /\ line = render_line m tags rest.

(** The line's tags are in key order (or it is not parsed at all). *)
Definition in_key_order (line : bytes) : Prop :=
  forall m tags rest, ParseTags line = POk m tags rest -> keys_sorted tags.

(* ---------------------------------------------------------------- *)

Lemma esc_len cs v : length v <= length (esc_spec cs v) <= 2 * length v.
Proof.
  induction v as [|b v IH]; [simpl; lia|]. unfold esc_spec in *. cbn [flat_map]. rewrite app_length.
  destruct (memb cs b); cbn [length]; lia.
Qed.

Lemma unescape_len : forall n v, length v <= n -> length (unescape_loop v) <= length v.
Proof.
  induction n as [|n IH]; intros v L; [destruct v; [auto|simpl in L; lia]|].
  destruct v as [|a [|b r]]; auto. cbn [length] in L.
  change (unescape_loop (a :: b :: r)) with (if Ascii.eqb a bsl && unescapable b then b :: unescape_loop r else a :: unescape_loop (b :: r)).
  destruct (Ascii.eqb a bsl && unescapable b).
  - cbn [length]. specialize (IH r). lia.
  - cbn [length]. pose proof (IH (b :: r)) as X. cbn [length] in X. specialize (X ltac:(lia)). lia.
Qed.

Lemma Token_total until s t r : Token until s = (t, r) -> length t + length r <= length s.
Proof.
  rewrite Token_spec. destruct (TokenEscaped until s) as [e rr] eqn:E. cbn [fst snd]. intros H; inversion H; subst.
  pose proof (TokenEscaped_split _ _ _ _ E) as Es. subst s. rewrite app_length. rewrite Unescape_loop.
  pose proof (unescape_len (length e) e (le_n _)). lia.
Qed.

Definition tags_len (tags : list tag) : nat := list_sum (map (fun t : tag => 2 + length (fst t) + length (snd t)) tags).
Definition rest_len (rest : bytes) : nat := match rest with [] => 0 | _ => S (length rest) end.

Lemma tags_len_app a b : tags_len (a ++ b) = tags_len a + tags_len b.
Proof. unfold tags_len. rewrite map_app, list_sum_app. auto. Qed.

Lemma loop_len : forall fuel m line acc m' tags rest, parse_tags_loop fuel m line acc = POk m' tags rest ->
  m' = m /\ tags_len tags + rest_len rest <= tags_len acc + length line.
Proof.
  induction fuel as [|f IH]; intros m line acc m' tags rest H; [discriminate|]. cbn [parse_tags_loop] in H.
  assert (R : forall l : list tag, tags_len (rev l) = tags_len l).
  { induction l as [|t l IHl]; auto. cbn [rev]. rewrite tags_len_app, IHl. unfold tags_len. cbn [map]. simpl. lia. }
  destruct line as [|c line1]; [inversion H; subst; rewrite R; cbn; split; auto; lia|].
  destruct (Ascii.eqb c sp).
  { inversion H; subst. rewrite R. split; auto. destruct rest; cbn [rest_len length]; lia. }
  destruct (Token (lit "= ,") line1) as [key l2] eqn:T1. destruct l2 as [|d l3]; [discriminate|].
  destruct (negb (Ascii.eqb d eqs)); [discriminate|]. destruct (Token (lit ", ") l3) as [value l4] eqn:T2.
  destruct value as [|v0 value]; [discriminate|].
  apply Token_total in T1, T2. cbn [length] in *. destruct (IH _ _ _ _ _ _ H) as [E L]. split; auto.
  unfold tags_len in L at 2. cbn [map list_sum fold_right] in L. fold (list_sum (map (fun t : tag => 2 + length (fst t) + length (snd t)) acc)) in L.
  fold (tags_len acc) in L. cbn [fst snd length] in L. lia.
Qed.

Lemma parse_len line m tags rest : ParseTags line = POk m tags rest -> length m + tags_len tags + rest_len rest <= length line.
Proof.
  unfold ParseTags. destruct (Token (lit ", ") line) as [m0 l] eqn:T. apply Token_total in T. destruct l as [|c l].
  - intros H; inversion H; subst. cbn in *. lia.
  - intros H. apply loop_len in H. destruct H as [-> H]. cbn [tags_len] in H. unfold tags_len in H at 2. cbn [map] in H. simpl list_sum in H. lia.
Qed.

Lemma tags_len_perm a b : Permutation a b -> tags_len a = tags_len b.
Proof. induction 1; auto; unfold tags_len in *; cbn [map]; simpl list_sum in *; lia. Qed.

Lemma tags_text_len tags : length (flat_map (fun t : tag => [comma] ++ esc_spec [comma; eqs; sp] (fst t) ++ [eqs] ++ esc_spec [comma; eqs; sp] (snd t)) tags)
  <= 2 * tags_len tags - 2 * length tags.
Proof.
  induction tags as [|[k v] tags IH]; [simpl; lia|]. cbn [flat_map fst snd]. rewrite app_length, !app_length. cbn [length].
  pose proof (esc_len [comma; eqs; sp] k). pose proof (esc_len [comma; eqs; sp] v). unfold tags_len in *. cbn [map fst snd].
  assert (G : forall t : list tag, 2 * length t <= 2 * list_sum (map (fun t : tag => 2 + length (fst t) + length (snd t)) t)).
  { clear. induction t as [|x t IH]; auto. cbn [map length]. simpl list_sum in *. lia. }
  specialize (G tags). simpl list_sum in *. lia.
Qed.

Lemma tags_bytes_len tags : tags <> [] -> S (length (TagsBytes tags)) =
  length (flat_map (fun t : tag => [comma] ++ esc_spec [comma; eqs; sp] (fst t) ++ [eqs] ++ esc_spec [comma; eqs; sp] (snd t)) tags).
Proof.
  unfold TagsBytes. induction tags as [|[k v] tags IH]; [congruence|]. intros _. cbn [tags_bytes_loop flat_map fst snd].
  unfold EscapeTagPart. rewrite !Escape_spec. change (lit ",= ") with [comma; eqs; sp].
  repeat (rewrite ?app_length; cbn [length]). destruct tags as [|t tags]; [simpl; lia|].
  specialize (IH ltac:(discriminate)). cbn [length]. rewrite IH. lia.
Qed.

Lemma render_len m tags rest : rest <> [] -> length (render_line m tags rest) =
  length (esc_spec [comma; sp] m) + length (flat_map (fun t : tag => [comma] ++ esc_spec [comma; eqs; sp] (fst t) ++ [eqs] ++ esc_spec [comma; eqs; sp] (snd t)) tags) + S (length rest).
Proof. intros _. unfold render_line, tag. rewrite !app_length. cbn [length]. rewrite Nat.add_assoc. reflexivity. Qed.

Lemma sorted_text_len line m tags rest text : ParseTags line = POk m tags rest -> sorted_text line m tags rest text ->
  length text <= 2 * length line.
Proof.
  intros P (tags' & Pm & _ & K1 & K2). destruct (keys_sorted_dec tags) as [K|K]; [rewrite (K1 K); lia|].
  rewrite (K2 K). pose proof (parse_len _ _ _ _ P) as L. rewrite (tags_len_perm _ _ Pm) in L.
  pose proof (tags_text_len tags') as T. pose proof (esc_len [comma; sp] m) as M.
  assert (Ne : tags' <> []).
  { intros ->. apply Permutation_sym, Permutation_nil in Pm. apply (unsorted_nonempty _ K Pm). }
  assert (L2 : 2 <= tags_len tags') by (destruct tags' as [|t tags']; [congruence|]; unfold tags_len; cbn [map]; simpl list_sum; lia).
  destruct rest as [|r0 rest].
  - pose proof (tags_bytes_len tags' Ne) as E. rewrite !app_length. cbn [length rest_len] in *. lia.
  - rewrite render_len by discriminate. cbn [length rest_len] in *. lia.
Qed.

Lemma text_same_len line m tags rest text : ParseTags line = POk m tags rest -> sorted_text line m tags rest text ->
  canonical line \/ in_key_order line -> length text = length line.
Proof.
  intros P (tags' & Pm & _ & K1 & K2) C. destruct (keys_sorted_dec tags) as [K|K]; [rewrite (K1 K); auto|].
  destruct C as [(m0 & tags0 & rest0 & Nr & Gm & Gt & ->)|C]; [|destruct (K (C _ _ _ P))].
  rewrite (ParseTags_render _ _ _ Gm Gt) in P. inversion P; subst. rewrite (K2 K). destruct rest; [congruence|].
  symmetry. apply esc_len_perm; auto.
Qed.

(* ---------------------------------------------------------------- *)
(** The bytes of the texts of the lines that are forwarded. *)
Definition fate_len (f : fate) : nat := match f with FateRule _ t | FateJunk t => length t | _ => 0 end.

Lemma sum_single n j x : list_sum (map (fun i => if Nat.eqb j i then x else 0) (seq 0 n)) = if Nat.ltb j n then x else 0.
Proof.
  induction n as [|n IH]; [reflexivity|]. rewrite seq_S, map_app, list_sum_app, IH. cbn [map plus]. simpl list_sum.
  destruct (Nat.eqb_spec j n), (Nat.ltb_spec j n), (Nat.ltb_spec j (S n)); lia.
Qed.

Lemma sum_plus (l : list nat) f g : list_sum (map (fun i => f i + g i) l) = list_sum (map f l) + list_sum (map g l).
Proof. induction l as [|a l IH]; auto. cbn [map]. simpl list_sum. lia. Qed.

Lemma data_total n fs : (forall i t, In (FateRule i t) fs -> i < n) ->
  list_sum (map (fun i => length (data_for i fs)) (seq 0 n)) + length (junk_for fs) = list_sum (map fate_len fs).
Proof.
  induction fs as [|f fs IH]; intros H.
  - cbn. induction (seq 0 n); auto.
  - specialize (IH (fun i t I => H i t (or_intror I))). unfold data_for, junk_for in *. cbn [flat_map map].
    change (list_sum (fate_len f :: map fate_len fs)) with (fate_len f + list_sum (map fate_len fs)).
    rewrite app_length.
    rewrite (map_ext _ (fun i => (match f with FateRule j t => if Nat.eqb j i then length t else 0 | _ => 0 end) +
      length (flat_map (fun f => match f with FateRule j t => if Nat.eqb j i then t else [] | _ => [] end) fs))).
    2:{ intros i. rewrite app_length. destruct f as [j t| | |]; auto. destruct (Nat.eqb j i); auto. }
    rewrite sum_plus. destruct f as [j t|t| |]; cbn [fate_len length].
    + rewrite sum_single. assert (Lt : j < n) by (eapply H; left; eauto). apply Nat.ltb_lt in Lt. rewrite Lt. lia.
    + replace (list_sum (map (fun _ : nat => 0) (seq 0 n))) with 0; [lia|]. clear. induction (seq 0 n); auto.
    + replace (list_sum (map (fun _ : nat => 0) (seq 0 n))) with 0; [lia|]. clear. induction (seq 0 n); auto.
    + replace (list_sum (map (fun _ : nat => 0) (seq 0 n))) with 0; [lia|]. clear. induction (seq 0 n); auto.
Qed.

Lemma outputs_total rs junk fs : (forall i t, In (FateRule i t) fs -> i < length rs) ->
  total_bytes (outputs rs junk fs) = list_sum (map fate_len fs).
Proof.
  intros H. rewrite <- (data_total _ _ H). unfold outputs, total_bytes.
  assert (Fl : forall ms : list (bytes * bytes), list_sum (map (fun p => length (snd p)) (filter (fun p => match snd p with [] => false | _ => true end) ms)) =
    list_sum (map (fun p => length (snd p)) ms)).
  { induction ms as [|[s d] ms IH]; auto. cbn [filter snd]. destruct d; cbn [map snd]; simpl list_sum; lia. }
  rewrite Fl, map_app, list_sum_app, map_map. cbn [map snd]. simpl (list_sum [_]). rewrite Nat.add_0_r. f_equal.
  assert (X : forall n (l : list rule), map (fun x => length (data_for (fst x) fs)) (combine (seq n (length l)) l) = map (fun i => length (data_for i fs)) (seq n (length l))).
  { intros n l. revert n. induction l as [|r l IH]; intros n; auto. cbn [length seq combine map fst]. f_equal. auto. }
  rewrite <- (X 0 rs). f_equal.
Qed.

Lemma len_lines b : list_sum (map (@length ascii) (lines_of b)) = length b.
Proof.
  rewrite <- (lines_of_concat b) at 2. induction (lines_of b) as [|l ls IH]; auto. cbn [map concat]. rewrite app_length. simpl list_sum. lia.
Qed.

Lemma size_bound gs c oks now batch : sorts gs -> int64 (now - fc_delta c) -> int64 (now + fc_delta c) ->
  total_bytes (published (snd (processBatch gs c oks now (newFilterWorker c) batch))) <= 2 * length batch.
Proof.
  intros GS B1 B2. destruct (routing gs c oks now batch GS B1 B2) as (fs & F & E). rewrite E.
  rewrite outputs_total by (intros; eapply fate_rule_lt; eauto).
  rewrite <- len_lines. clear E. induction F as [|l f ls fs H F IH]; [simpl; lia|]. cbn [map]. simpl list_sum.
  assert (X : fate_len f <= 2 * length l); [|lia].
  inversion H; subst; cbn [fate_len]; try lia; eapply sorted_text_len; eauto.
Qed.

Lemma size_same gs c oks now batch : sorts gs -> int64 (now - fc_delta c) -> int64 (now + fc_delta c) ->
  Forall (fun l => canonical l \/ in_key_order l) (lines_of batch) ->
  total_bytes (published (snd (processBatch gs c oks now (newFilterWorker c) batch))) <= length batch.
Proof.
  intros GS B1 B2 C. destruct (routing gs c oks now batch GS B1 B2) as (fs & F & E). rewrite E.
  rewrite outputs_total by (intros; eapply fate_rule_lt; eauto).
  rewrite <- len_lines. clear E. induction F as [|l f ls fs H F IH]; [simpl; lia|]. cbn [map]. simpl list_sum.
  inversion C; subst. specialize (IH ltac:(auto)).
  assert (X : fate_len f <= length l); [|lia].
  inversion H; subst; cbn [fate_len]; try lia; erewrite text_same_len; eauto.
Qed.

(* ---------------------------------------------------------------- *)
(** A line whose tag value is full of equals signs nearly doubles. *)
Definition grower (n : nat) : bytes := lit "m,b=v" ++ repeat eqs n ++ lit ",a=1 x=1".

Lemma Unescape_plain v : ~ In bsl v -> Unescape v = v.
Proof. intros H. unfold Unescape. apply memb_false in H. rewrite H. auto. Qed.

Lemma plain_token until tok d r : tok <> [] -> In d until -> ~ In bsl tok -> (forall x, In x until -> ~ In x tok) ->
  Token until (tok ++ d :: r) = (tok, d :: r).
Proof.
  intros Ne Hd Hb Hu. rewrite Token_spec. rewrite (TokenEscaped_unique until tok d r); auto.
  - cbn [fst snd]. rewrite Unescape_plain; auto.
  - intros [p ->]. apply Hb. apply in_or_app; right; left; auto.
  - intros p x q -> _ I. exfalso. apply (Hu x I). apply in_or_app; right; left; auto.
Qed.

Lemma grower_parse n : ParseTags (grower n) = POk (lit "m") [(lit "b", lit "v" ++ repeat eqs n); (lit "a", lit "1")] (lit "x=1").
Proof.
  unfold ParseTags, grower.
  change (lit "m,b=v" ++ repeat eqs n ++ lit ",a=1 x=1") with (lit "m" ++ comma :: (lit "b=v" ++ repeat eqs n ++ lit ",a=1 x=1")).
  rewrite plain_token; [|discriminate|left; auto|apply memb_false; reflexivity|intros x [<-|[<-|[]]]; apply memb_false; reflexivity].
  set (l := lit "b=v" ++ repeat eqs n ++ lit ",a=1 x=1"). cbn [parse_tags_loop length].
  change (Ascii.eqb comma sp) with false. cbv iota.
  change l with (lit "b" ++ eqs :: (lit "v" ++ repeat eqs n) ++ comma :: lit "a=1 x=1") at 1.
  rewrite plain_token; [|discriminate|left; auto|apply memb_false; reflexivity|intros x [<-|[<-|[<-|[]]]]; apply memb_false; reflexivity].
  change (Ascii.eqb eqs eqs) with true. cbn [negb].
  assert (R : forall x, x <> eqs -> ~ In x (repeat eqs n)) by (intros x N I; apply repeat_spec in I; congruence).
  rewrite plain_token; [|discriminate|left; auto| |].
  - assert (Ln : exists k, length l = S k) by (unfold l; rewrite app_length; cbn [lit list_ascii_of_string length plus]; eauto).
    destruct Ln as [k ->]. reflexivity.
  - intros I. apply in_app_or in I. destruct I as [[E|[]]|I]; [discriminate|]. revert I. apply R. discriminate.
  - intros x [<-|[<-|[]]] I; apply in_app_or in I; (destruct I as [[E|[]]|I]; [discriminate|]; revert I; apply R; discriminate).
Qed.

Lemma grower_unstamped n t : ~ stamped (grower n) t.
Proof.
  intros (pre & txt & (Ch & Ns & _ & It & _) & _).
  assert (E : grower n = (lit "m,b=v" ++ repeat eqs n ++ lit ",a=1") ++ [sp] ++ lit "x=1") by (unfold grower; rewrite <- !app_assoc; reflexivity).
  assert (X : pre ++ [sp] ++ txt = grower n).
  { destruct Ch as [Ch|[Ch _]]; [|auto]. exfalso. rewrite E in Ch.
    change (lit "x=1") with (lit "x=" ++ ["1"%char]) in Ch. rewrite !app_assoc in Ch. apply app_inj_tail in Ch. destruct Ch; discriminate. }
  assert (Y : txt = lit "x=1").
  { rewrite E in X. assert (Z : forall a b (u v : bytes), a ++ [sp] ++ u = b ++ [sp] ++ v -> ~ In sp u -> ~ In sp v -> u = v).
    { clear. induction a as [|c a IH]; intros [|d b] u v H Hu Hv; cbn in H.
      - congruence.
      - inversion H; subst. exfalso. apply Hu. apply in_or_app; right; left; auto.
      - inversion H; subst. exfalso. apply Hv. apply in_or_app; right; left; auto.
      - inversion H; subst. eapply IH; eauto. }
    eapply Z; eauto. apply memb_false; reflexivity. }
  subst txt. inversion It as [ds [_ D] Eq|ds [_ D] Eq].
  inversion D as [|? ? Dx _]; subst. unfold is_digit in Dx. vm_compute in Dx. destruct Dx as [_ Dx]. apply Dx. reflexivity.
Qed.

Lemma grower_out gs oks now delta junk n : sorts gs -> int64 (now - delta) -> int64 (now + delta) -> (0 < delta)%Z ->
  exists text, published (snd (processBatch gs (mkFcfg delta [] junk) oks now (newFilterWorker (mkFcfg delta [] junk)) (grower n))) = [(junk, text)] /\
    length text = length (grower n) + n.
Proof.
  intros GS B1 B2 Hd. set (c := mkFcfg delta [] junk). destruct (routing gs c oks now (grower n) GS B1 B2) as (fs & F & E). rewrite E.
  assert (L : lines_of (grower n) = [grower n]).
  { assert (N : ~ In nl (grower n)).
    { unfold grower. intros I. apply in_app_or in I. destruct I as [I|I]; [revert I; apply memb_false; reflexivity|].
      apply in_app_or in I. destruct I as [I|I]; [apply repeat_spec in I; discriminate|revert I; apply memb_false; reflexivity]. }
    apply lines_of_no_nl; auto. discriminate. }
  rewrite L in F. inversion F as [|? f ? fs' Hf F']; subst. inversion F'; subst. clear F'.
  assert (Lt : forall ts, line_time now (grower n) ts -> ts = now).
  { intros ts [(_ & St & _)|[_ ->]]; auto. destruct (grower_unstamped _ _ St). }
  pose proof (grower_parse n) as P.
  inversion Hf as [ts T W|ts T W Pe|ts m tags rest text i T W Pe St Rt|ts m tags rest text T W Pe St Rt]; subst.
  - apply Lt in T. subst. exfalso. apply W. cbn [fc_delta c]. lia.
  - congruence.
  - cbn in Rt. lia.
  - rewrite P in Pe. inversion Pe; subst m tags rest. destruct St as (tags' & Pm & _ & _ & K2).
    assert (K : ~ keys_sorted [(lit "b", lit "v" ++ repeat eqs n); (lit "a", lit "1")]).
    { intros K. specialize (K 0 1 _ _ (Nat.lt_0_succ _) eq_refl eq_refl). vm_compute in K. discriminate. }
    specialize (K2 K). cbn [lit list_ascii_of_string] in K2. exists text. split.
    + unfold outputs. cbn. rewrite K2. rewrite app_nil_r. reflexivity.
    + change ["x"%char; "="%char; "1"%char] with (lit "x=1") in K2. rewrite K2.
      rewrite <- (esc_len_perm _ _ Pm). unfold render_line, grower. cbn [flat_map fst snd].
      assert (Es : length (esc_spec [comma; eqs; sp] (lit "v" ++ repeat eqs n)) = 1 + 2 * n).
      { unfold esc_spec. rewrite flat_map_app, app_length. cbn [lit list_ascii_of_string flat_map]. 
        replace (length (flat_map (fun b => if memb [comma; eqs; sp] b then [bsl; b] else [b]) (repeat eqs n))) with (2 * n); [reflexivity|].
        clear. induction n as [|n IH]; auto. cbn [repeat flat_map]. rewrite app_length, <- IH. change (memb [comma; eqs; sp] eqs) with true. cbn [length]. lia. }
      change ("v"%char :: repeat eqs n) with (lit "v" ++ repeat eqs n). set (v := lit "v" ++ repeat eqs n) in *. repeat (rewrite app_length; cbn [length]). rewrite Es, repeat_length. cbn. lia.
Qed.
