(** What an edit of the rules changes in the output of a filter. *)
From Verif Require Import Base Text TextSpec NumSpec LinesSpec Rules RulesSpec FilterWorker FilterSpec RulesProofs RouteProofs FilterProofs.
Local Open Scope nat_scope.

(** The fate of a line, as a function: filter/worker.go:93-135. *)
Definition fate_of (gs : forall A : Type, (A -> A -> bool) -> list A -> list A) (rs : list rule) (now lo hi : Z) (line : bytes) : fate :=
  if (Z.ltb lo (filterTimestamp line now) && Z.ltb (filterTimestamp line now) hi)%bool then
    match newParsedLine line with
    | None => FateDropped
    | Some pl =>
        let l := SortTags gs pl in
        match LookupParsed rs l with None => FateJunk (Escaped l) | Some i => FateRule i (Escaped l) end
    end
  else FateInvalidTime.
Definition fates_of gs (c : fcfg) (now : Z) (batch : bytes) : list fate :=
  map (fate_of gs (fc_rules c) now (wrap64 (now - fc_delta c)) (wrap64 (now + fc_delta c))) (lines_of batch).

(** Whether a rule fits a line as the filter looks at it: read, and with its tags in order. *)
Definition fits_rule gs (r : rule) (line : bytes) : Prop := exists pl, newParsedLine line = Some pl /\ rule_matches r (SortTags gs pl) = true.

Lemma process_lines_fun gs c now lo hi : forall ls st, Forall (fun l => l <> []) ls ->
  process_lines gs c now lo hi st ls = (fold_left add_fate (map (fate_of gs (fc_rules c) now lo hi) ls) st,
    flat_map fate_acts (map (fate_of gs (fc_rules c) now lo hi) ls)).
Proof.
  induction ls as [|line ls IH]; intros st F; [reflexivity|]. inversion F as [|? ? Nl F']; subst. destruct line as [|x line]; [congruence|].
  cbn [process_lines map fold_left flat_map].
  assert (X : (if (Z.ltb lo (filterTimestamp (x :: line) now) && Z.ltb (filterTimestamp (x :: line) now) hi)%bool
     then processLine gs c st (x :: line) else (st, [AInc FInvalidTime])) =
     (add_fate st (fate_of gs (fc_rules c) now lo hi (x :: line)), tl (fate_acts (fate_of gs (fc_rules c) now lo hi (x :: line))))).
  { unfold fate_of. destruct (_ && _)%bool; [|reflexivity]. unfold processLine.
    destruct (newParsedLine (x :: line)) as [pl|]; [|reflexivity]. cbv zeta. destruct (LookupParsed (fc_rules c) (SortTags gs pl)); reflexivity. }
  rewrite X, IH by exact F'. reflexivity.
Qed.

Lemma published_fun gs c oks now batch :
  published (snd (processBatch gs c oks now (newFilterWorker c) batch)) = outputs (fc_rules c) (fc_junk c) (fates_of gs c now batch).
Proof.
  unfold processBatch. rewrite process_lines_empties, (proj1 (SplitAfter_lines batch)), process_lines_fun by (apply Forall_forall, lines_of_nonempty).
  change (map (fate_of gs (fc_rules c) now (wrap64 (now - fc_delta c)) (wrap64 (now + fc_delta c))) (lines_of batch)) with (fates_of gs c now batch).
  rewrite fresh_as_fates, fold_fates. cbn [app]. rewrite sendOff_spec. cbn [snd]. rewrite published_app, published_fates, published_pubs. reflexivity.
Qed.

(** ** Inserting a rule *)

(** The number of a rule after another one was put before it at place [n]. *)
Definition shift (n i : nat) : nat := if Nat.ltb i n then i else S i.
Definition shift_fate (n : nat) (f : fate) : fate := match f with FateRule i t => FateRule (shift n i) t | _ => f end.
(** A line moves to the rule at place [n]: it went to a later rule or to junk before. *)
Definition moves (n : nat) (f f' : fate) : Prop :=
  exists t, f' = FateRule n t /\ (f = FateJunk t \/ exists i, n <= i /\ f = FateRule i t).

Lemma lookup_from_app a b pl : forall k, lookup_from k (a ++ b) pl =
  match lookup_from k a pl with Some i => Some i | None => lookup_from (k + length a) b pl end.
Proof.
  induction a as [|r a IH]; intros k; cbn [app lookup_from length]; [rewrite Nat.add_0_r; reflexivity|].
  destruct (rule_matches r pl); [reflexivity|]. rewrite IH. replace (k + S (length a)) with (S k + length a) by lia. reflexivity.
Qed.
Lemma lookup_from_range rs pl : forall k i, lookup_from k rs pl = Some i -> k <= i < k + length rs.
Proof.
  induction rs as [|r rs IH]; intros k i H; cbn [lookup_from length] in *; [discriminate|].
  destruct (rule_matches r pl); [inversion H; subst; lia|]. apply IH in H. lia.
Qed.
Lemma lookup_from_shift rs pl : forall k, lookup_from (S k) rs pl = option_map S (lookup_from k rs pl).
Proof. induction rs as [|r rs IH]; intros k; cbn [lookup_from]; [reflexivity|]. destruct (rule_matches r pl); [reflexivity|]. apply IH. Qed.

Lemma insert_fate gs a r b now lo hi line :
  let f := fate_of gs (a ++ b) now lo hi line in let f' := fate_of gs (a ++ r :: b) now lo hi line in
  (f' = shift_fate (length a) f /\ (fits_rule gs r line -> Exists (fun q => fits_rule gs q line) a \/ f = FateInvalidTime)) \/
  (moves (length a) f f' /\ fits_rule gs r line /\ Forall (fun q => ~ fits_rule gs q line) a).
Proof.
  cbv zeta. unfold fate_of. destruct (_ && _)%bool; [|left; split; [reflexivity|auto]].
  destruct (newParsedLine line) as [pl|] eqn:Ep.
  2:{ left. split; [reflexivity|]. intros (pl & E & _). congruence. }
  assert (Fit : forall q, fits_rule gs q line <-> rule_matches q (SortTags gs pl) = true).
  { intros q. split; [intros (pl' & E & M); congruence|intros M; exists pl; auto]. }
  unfold LookupParsed. rewrite !lookup_from_app. cbn [Nat.add]. cbv zeta.
  destruct (lookup_from 0 a (SortTags gs pl)) as [i|] eqn:Ea.
  - left. apply lookup_from_range in Ea as R. split.
    + cbn [shift_fate]. unfold shift. replace (Nat.ltb i (length a)) with true by (symmetry; apply Nat.ltb_lt; lia). reflexivity.
    + intros _. left. pose proof (LookupParsed_first a (SortTags gs pl)) as X. unfold LookupParsed in X. rewrite Ea in X. cbn in X.
      destruct X as ((q & E & M) & _). apply Exists_exists. exists q. split; [apply nth_error_In in E; exact E|]. apply Fit. exact M.
  - assert (Na : Forall (fun q => rule_matches q (SortTags gs pl) = false) a).
    { clear - Ea. revert Ea. generalize 0. induction a as [|q a IH]; intros k H; [constructor|]. cbn [lookup_from] in H.
      destruct (rule_matches q (SortTags gs pl)) eqn:M; [discriminate|]. constructor; [exact M|]. eapply IH. exact H. }
    cbn [lookup_from]. destruct (rule_matches r (SortTags gs pl)) eqn:M.
    + right. split; [|split; [apply Fit; exact M|]].
      * exists (Escaped (SortTags gs pl)). split; [reflexivity|]. destruct (lookup_from (length a) b (SortTags gs pl)) as [i|] eqn:Eb; [right|left; reflexivity].
        exists i. split; [apply lookup_from_range in Eb; lia|reflexivity].
      * eapply Forall_impl; [|exact Na]. cbv beta. intros q X Y. apply Fit in Y. congruence.
    + left. rewrite lookup_from_shift. split.
      * destruct (lookup_from (length a) b (SortTags gs pl)) as [i|] eqn:Eb; [|reflexivity]. cbn [option_map shift_fate]. unfold shift.
        apply lookup_from_range in Eb. replace (Nat.ltb i (length a)) with false by (symmetry; apply Nat.ltb_ge; lia). reflexivity.
      * intros X. apply Fit in X. congruence.
Qed.

(** ** The messages of a batch, rule by rule *)

(** One message, or none when there is nothing to send. *)
Definition msg (subject data : bytes) : list (bytes * bytes) := match data with [] => [] | _ => [(subject, data)] end.
(** The messages of the rules numbered from [k], when rule [i] has the data [D i]. *)
Fixpoint part (k : nat) (rs : list rule) (D : nat -> bytes) : list (bytes * bytes) :=
  match rs with [] => [] | r :: rs' => msg (r_subject r) (D k) ++ part (S k) rs' D end.

Lemma filter_part D : forall rs k,
  filter (fun p : bytes * bytes => match snd p with [] => false | _ => true end)
    (map (fun ir : nat * rule => (r_subject (snd ir), D (fst ir))) (combine (seq k (length rs)) rs)) = part k rs D.
Proof.
  induction rs as [|r rs IH]; intros k; [reflexivity|]. cbn [length seq combine map filter snd fst part].
  rewrite IH. unfold msg. destruct (D k); reflexivity.
Qed.
Lemma outputs_part rs junk fs : outputs rs junk fs = part 0 rs (fun i => data_for i fs) ++ msg junk (junk_for fs).
Proof.
  unfold outputs. rewrite filter_app. rewrite (filter_part (fun i => data_for i fs)). f_equal.
  cbn [filter snd]. unfold msg. destruct (junk_for fs); reflexivity.
Qed.
Lemma part_app D : forall a b k, part k (a ++ b) D = part k a D ++ part (k + length a) b D.
Proof.
  induction a as [|r a IH]; intros b k; cbn [app part length]; [rewrite Nat.add_0_r; reflexivity|].
  rewrite IH, app_assoc. replace (k + S (length a)) with (S k + length a) by lia. reflexivity.
Qed.
Lemma part_ext D D' : forall rs k, (forall i, k <= i < k + length rs -> D i = D' i) -> part k rs D = part k rs D'.
Proof.
  induction rs as [|r rs IH]; intros k H; [reflexivity|]. cbn [part length] in *. rewrite (H k) by lia. f_equal. apply IH. intros i Hi. apply H. lia.
Qed.
Lemma part_shift D : forall rs k, part (S k) rs D = part k rs (fun i => D (S i)).
Proof. induction rs as [|r rs IH]; intros k; [reflexivity|]. cbn [part]. rewrite IH. reflexivity. Qed.

Lemma nth_error_fates gs c now batch k f : nth_error (fates_of gs c now batch) k = Some f ->
  exists line, nth_error (lines_of batch) k = Some line /\
    f = fate_of gs (fc_rules c) now (wrap64 (now - fc_delta c)) (wrap64 (now + fc_delta c)) line.
Proof.
  unfold fates_of. rewrite nth_error_map. destruct (nth_error (lines_of batch) k) as [line|]; cbn [option_map]; intros H; [|discriminate].
  exists line. inversion H. auto.
Qed.

(** *** A rule is inserted. *)
Lemma insert_rule gs d a r b junk oks oks' now batch :
  let c := mkFcfg d (a ++ b) junk in let c' := mkFcfg d (a ++ r :: b) junk in
  exists fs fs',
    published (snd (processBatch gs c oks now (newFilterWorker c) batch)) = outputs (a ++ b) junk fs /\
    published (snd (processBatch gs c' oks' now (newFilterWorker c') batch)) = outputs (a ++ r :: b) junk fs' /\
    length fs = length (lines_of batch) /\ length fs' = length (lines_of batch) /\
    forall k line f f', nth_error (lines_of batch) k = Some line -> nth_error fs k = Some f -> nth_error fs' k = Some f' ->
      (f' = shift_fate (length a) f /\ (fits_rule gs r line -> Exists (fun q => fits_rule gs q line) a \/ f = FateInvalidTime)) \/
      (moves (length a) f f' /\ fits_rule gs r line /\ Forall (fun q => ~ fits_rule gs q line) a).
Proof.
  cbv zeta. set (c := mkFcfg d (a ++ b) junk). set (c' := mkFcfg d (a ++ r :: b) junk).
  exists (fates_of gs c now batch), (fates_of gs c' now batch).
  split; [apply (published_fun gs c)|]. split; [apply (published_fun gs c')|].
  split; [apply map_length|]. split; [apply map_length|].
  intros k line f f' Hl Hf Hf'. apply nth_error_fates in Hf as (l1 & E1 & ->). apply nth_error_fates in Hf' as (l2 & E2 & ->).
  assert (l1 = line) as -> by congruence. assert (l2 = line) as -> by congruence.
  apply (insert_fate gs a r b now (wrap64 (now - d)) (wrap64 (now + d)) line).
Qed.

(** *** The new rule has nothing left to take. *)
Lemma data_for_shift n i fs : data_for (shift n i) (map (shift_fate n) fs) = data_for i fs.
Proof.
  unfold data_for. induction fs as [|f fs IH]; [reflexivity|]. cbn [map flat_map]. rewrite IH. f_equal.
  destruct f as [j t|t| |]; try reflexivity. cbn [shift_fate].
  assert (X : Nat.eqb (shift n j) (shift n i) = Nat.eqb j i).
  { unfold shift. destruct (Nat.ltb_spec j n), (Nat.ltb_spec i n), (Nat.eqb_spec j i); try (apply Nat.eqb_eq; lia); try (apply Nat.eqb_neq; lia); reflexivity. }
  rewrite X. reflexivity.
Qed.
Lemma data_for_gap n fs : data_for n (map (shift_fate n) fs) = [].
Proof.
  unfold data_for. induction fs as [|f fs IH]; [reflexivity|]. cbn [map flat_map]. rewrite IH.
  destruct f as [j t|t| |]; try reflexivity. cbn [shift_fate].
  assert (X : Nat.eqb (shift n j) n = false).
  { unfold shift. apply Nat.eqb_neq. destruct (Nat.ltb j n) eqn:A; [apply Nat.ltb_lt in A|apply Nat.ltb_ge in A]; lia. }
  rewrite X. reflexivity.
Qed.
Lemma junk_for_shift n fs : junk_for (map (shift_fate n) fs) = junk_for fs.
Proof. unfold junk_for. induction fs as [|f fs IH]; [reflexivity|]. cbn [map flat_map]. rewrite IH. destruct f; reflexivity. Qed.

Lemma dead_batch gs d a r b junk oks oks' now batch :
  (forall line, In line (lines_of batch) -> fits_rule gs r line -> Exists (fun q => fits_rule gs q line) a) ->
  let c := mkFcfg d (a ++ b) junk in let c' := mkFcfg d (a ++ r :: b) junk in
  published (snd (processBatch gs c' oks' now (newFilterWorker c') batch)) =
  published (snd (processBatch gs c oks now (newFilterWorker c) batch)).
Proof.
  intros Dead. cbv zeta. rewrite !published_fun. cbn [fc_rules fc_junk].
  assert (E : fates_of gs (mkFcfg d (a ++ r :: b) junk) now batch =
              map (shift_fate (length a)) (fates_of gs (mkFcfg d (a ++ b) junk) now batch)).
  { unfold fates_of. cbn [fc_rules fc_delta]. rewrite map_map. apply map_ext_in. intros line Hl.
    destruct (insert_fate gs a r b now (wrap64 (now - d)) (wrap64 (now + d)) line) as [[X _]|(_ & Fr & Na)]; [exact X|].
    exfalso. specialize (Dead line Hl Fr). apply Exists_exists in Dead as (q & Hq & Fq). rewrite Forall_forall in Na. exact (Na q Hq Fq). }
  rewrite E. set (fs := fates_of gs (mkFcfg d (a ++ b) junk) now batch).
  rewrite !outputs_part, junk_for_shift. f_equal. rewrite !part_app. cbn [part Nat.add]. rewrite data_for_gap. cbn [msg app].
  f_equal.
  - apply part_ext. intros i Hi. rewrite <- (data_for_shift (length a) i fs). unfold shift.
    replace (Nat.ltb i (length a)) with true by (symmetry; apply Nat.ltb_lt; lia). reflexivity.
  - rewrite part_shift. apply part_ext. intros i Hi. rewrite <- (data_for_shift (length a) i fs). unfold shift.
    replace (Nat.ltb i (length a)) with false by (symmetry; apply Nat.ltb_ge; lia). reflexivity.
Qed.

(** The same messages at the same times; what NATS answers may differ. *)
Definition same_job (j j' : job) : Prop := snd (fst j) = snd (fst j') /\ snd j = snd j'.

Lemma run_published gs c js : published (snd (run_worker gs c (newFilterWorker c) js)) =
  flat_map (fun j => published (snd (processBatch gs c (fst (fst j)) (snd (fst j)) (newFilterWorker c) (snd j)))) js.
Proof.
  rewrite run_worker_acts. cbn [snd]. rewrite published_flat. apply flat_map_ext. intros [[oks now] m]. reflexivity.
Qed.

Lemma dead_rule gs d a r b junk js js' :
  (forall line, fits_rule gs r line -> Exists (fun q => fits_rule gs q line) a) -> Forall2 same_job js js' ->
  let c := mkFcfg d (a ++ b) junk in let c' := mkFcfg d (a ++ r :: b) junk in
  published (snd (run_worker gs c' (newFilterWorker c') js')) = published (snd (run_worker gs c (newFilterWorker c) js)).
Proof.
  intros Dead F. cbv zeta. rewrite !run_published. induction F as [|j j' js js' [E1 E2] F IH]; [reflexivity|].
  cbn [flat_map]. rewrite IH, <- E1, <- E2. f_equal. apply dead_batch. intros line _. apply Dead.
Qed.

Lemma twice gs d a r m b junk js js' : r_match r = r_match m -> In m a -> Forall2 same_job js js' ->
  let c := mkFcfg d (a ++ b) junk in let c' := mkFcfg d (a ++ r :: b) junk in
  published (snd (run_worker gs c' (newFilterWorker c') js')) = published (snd (run_worker gs c (newFilterWorker c) js)).
Proof.
  intros E Hm F. apply dead_rule; [|exact F]. intros line (pl & Ep & M). apply Exists_exists. exists m. split; [exact Hm|].
  exists pl. split; [exact Ep|]. unfold rule_matches in *. rewrite <- E. exact M.
Qed.

(** *** A rule is appended. *)
Definition unit_of gs (r : rule) (rs : list rule) (now lo hi : Z) (line : bytes) : list (bool * bytes) :=
  match newParsedLine line, fate_of gs rs now lo hi line with
  | Some pl, FateJunk t => [(rule_matches r (SortTags gs pl), t)]
  | _, _ => []
  end.

Lemma append_fate gs rs r now lo hi line :
  fate_of gs (rs ++ [r]) now lo hi line =
  match unit_of gs r rs now lo hi line with [(true, t)] => FateRule (length rs) t | _ => fate_of gs rs now lo hi line end.
Proof.
  unfold unit_of, fate_of. destruct (_ && _)%bool; [|destruct (newParsedLine line); reflexivity].
  destruct (newParsedLine line) as [pl|]; [|reflexivity]. cbv zeta. unfold LookupParsed. rewrite lookup_from_app.
  destruct (lookup_from 0 rs (SortTags gs pl)); [reflexivity|]. cbn [lookup_from Nat.add].
  destruct (rule_matches r (SortTags gs pl)); reflexivity.
Qed.
Lemma fate_rule_range gs rs now lo hi line i t : fate_of gs rs now lo hi line = FateRule i t -> i < length rs.
Proof.
  unfold fate_of. destruct (_ && _)%bool; [|discriminate]. destruct (newParsedLine line) as [pl|]; [|discriminate]. cbv zeta. unfold LookupParsed.
  destruct (lookup_from 0 rs (SortTags gs pl)) as [j|] eqn:E; intros H; inversion H; subst. apply lookup_from_range in E. lia.
Qed.

(** The texts carried by the units of one kind. *)
Definition all_units (L : list (bool * bytes)) : bytes := concat (map snd L).
Definition taken (L : list (bool * bytes)) : bytes := concat (map (fun u : bool * bytes => if fst u then snd u else []) L).
Definition leftover (L : list (bool * bytes)) : bytes := concat (map (fun u : bool * bytes => if fst u then [] else snd u) L).

Lemma unit_shape gs r rs now lo hi line : unit_of gs r rs now lo hi line = [] \/
  exists b t, unit_of gs r rs now lo hi line = [(b, t)] /\ (b = true <-> fits_rule gs r line) /\
    (forall q, In q rs -> ~ fits_rule gs q line).
Proof.
  unfold unit_of, fate_of. destruct (newParsedLine line) as [pl|] eqn:Ep; [|left; reflexivity].
  destruct (_ && _)%bool; [|left; reflexivity]. cbv zeta. pose proof (LookupParsed_first rs (SortTags gs pl)) as X.
  destruct (LookupParsed rs (SortTags gs pl)) as [i|]; [left; reflexivity|]. right. eexists _, _. split; [reflexivity|]. split.
  - split; [intros M; exists pl; auto|]. intros (pl' & E & M). congruence.
  - intros q Hq (pl' & E & M). assert (pl' = pl) as -> by congruence. exact (X q Hq M).
Qed.
Lemma unit_fate gs r rs now lo hi line : unit_of gs r rs now lo hi line = [] -> forall t, fate_of gs rs now lo hi line <> FateJunk t.
Proof.
  unfold unit_of. destruct (newParsedLine line) as [pl|] eqn:Ep; intros U t X.
  - rewrite X in U. discriminate.
  - unfold fate_of in X. rewrite Ep in X. destruct (_ && _)%bool; discriminate.
Qed.
Lemma unit_junk gs r rs now lo hi line b t : unit_of gs r rs now lo hi line = [(b, t)] -> fate_of gs rs now lo hi line = FateJunk t.
Proof.
  unfold unit_of. destruct (newParsedLine line) as [pl|]; [|discriminate].
  destruct (fate_of gs rs now lo hi line); intros H; inversion H; subst; reflexivity.
Qed.

Lemma append_lines gs rs r now lo hi : forall ls,
  let f := map (fate_of gs rs now lo hi) ls in let f' := map (fate_of gs (rs ++ [r]) now lo hi) ls in
  let L := flat_map (unit_of gs r rs now lo hi) ls in
  (forall i, i < length rs -> data_for i f' = data_for i f) /\ data_for (length rs) f' = taken L /\
  junk_for f' = leftover L /\ junk_for f = all_units L.
Proof.
  induction ls as [|line ls IH]; cbv zeta in *; [split; [|split; [|split]]; reflexivity|].
  destruct IH as (I1 & I2 & I3 & I4). cbn [map flat_map].
  unfold data_for, junk_for, taken, leftover, all_units in *. rewrite !map_app, !concat_app. cbn [flat_map]. rewrite append_fate.
  rewrite I2, I3, I4.
  destruct (unit_shape gs r rs now lo hi line) as [U|(b & t & U & _)]; rewrite U.
  - pose proof (unit_fate _ _ _ _ _ _ _ U) as Nj. destruct (fate_of gs rs now lo hi line) as [j t|t| |] eqn:Ef; try (exfalso; apply (Nj t); reflexivity).
    + apply fate_rule_range in Ef. split; [intros i Hi; rewrite (I1 i Hi); reflexivity|].
      replace (Nat.eqb j (length rs)) with false by (symmetry; apply Nat.eqb_neq; lia). auto.
    + split; [intros i Hi; rewrite (I1 i Hi); reflexivity|]. auto.
    + split; [intros i Hi; rewrite (I1 i Hi); reflexivity|]. auto.
  - rewrite (unit_junk _ _ _ _ _ _ _ _ _ U). cbn [map concat fst snd]. rewrite !app_nil_r. destruct b.
    + rewrite Nat.eqb_refl. split; [|auto]. intros i Hi. rewrite (I1 i Hi).
      replace (Nat.eqb (length rs) i) with false by (symmetry; apply Nat.eqb_neq; lia). reflexivity.
    + split; [|auto]. intros i Hi. rewrite (I1 i Hi). reflexivity.
Qed.

Lemma units_lines gs r rs now lo hi : forall ls, exists ls', incl ls' ls /\
  Forall2 (fun line u => (fst u = true <-> fits_rule gs r line) /\ (forall q, In q rs -> ~ fits_rule gs q line)) ls' (flat_map (unit_of gs r rs now lo hi) ls).
Proof.
  induction ls as [|line ls (ls' & I & F)]; [exists []; split; [intros x []|constructor]|]. cbn [flat_map].
  destruct (unit_shape gs r rs now lo hi line) as [U|(b & t & U & B & N)]; rewrite U.
  - exists ls'. split; [apply incl_tl; exact I|exact F].
  - exists (line :: ls'). split; [apply incl_cons; [left; reflexivity|apply incl_tl; exact I]|]. constructor; [|exact F]. split; [exact B|exact N].
Qed.

Lemma append_rule gs d rs r junk oks oks' now batch :
  let c := mkFcfg d rs junk in let c' := mkFcfg d (rs ++ [r]) junk in
  exists before L lines',
    published (snd (processBatch gs c oks now (newFilterWorker c) batch)) = before ++ msg junk (all_units L) /\
    published (snd (processBatch gs c' oks' now (newFilterWorker c') batch)) =
      before ++ msg (r_subject r) (taken L) ++ msg junk (leftover L) /\
    incl lines' (lines_of batch) /\
    Forall2 (fun line u => (fst u = true <-> fits_rule gs r line) /\ (forall q, In q rs -> ~ fits_rule gs q line)) lines' L.
Proof.
  cbv zeta. rewrite !published_fun. cbn [fc_rules fc_junk]. rewrite !outputs_part.
  unfold fates_of. cbn [fc_rules fc_delta].
  destruct (append_lines gs rs r now (wrap64 (now - d)) (wrap64 (now + d)) (lines_of batch)) as (A & B & C & D).
  destruct (units_lines gs r rs now (wrap64 (now - d)) (wrap64 (now + d)) (lines_of batch)) as (ls' & I & F).
  set (L := flat_map (unit_of gs r rs now (wrap64 (now - d)) (wrap64 (now + d))) (lines_of batch)) in *.
  exists (part 0 rs (fun i => data_for i (map (fate_of gs rs now (wrap64 (now - d)) (wrap64 (now + d))) (lines_of batch)))), L, ls'.
  split; [rewrite D; reflexivity|]. split; [|split; [exact I|exact F]].
  rewrite part_app, C. cbn [part Nat.add]. rewrite B, app_nil_r, <- app_assoc. f_equal. apply part_ext. intros i Hi. apply A. lia.
Qed.

(** *** The rules are put in another order. *)

(** No two rules fit the same line. *)
Definition exclusive gs (rs : list rule) (lines : list bytes) : Prop :=
  forall line i j ri rj, In line lines -> nth_error rs i = Some ri -> nth_error rs j = Some rj ->
    fits_rule gs ri line -> fits_rule gs rj line -> i = j.

(** What a rule takes of a line, and what is left for junk. *)
Definition own gs (now lo hi : Z) (r : rule) (line : bytes) : bytes :=
  if (Z.ltb lo (filterTimestamp line now) && Z.ltb (filterTimestamp line now) hi)%bool then
    match newParsedLine line with
    | None => []
    | Some pl => if rule_matches r (SortTags gs pl) then Escaped (SortTags gs pl) else []
    end
  else [].
Definition rest_of gs (now lo hi : Z) (rs : list rule) (line : bytes) : bytes :=
  if (Z.ltb lo (filterTimestamp line now) && Z.ltb (filterTimestamp line now) hi)%bool then
    match newParsedLine line with
    | None => []
    | Some pl => if existsb (fun r => rule_matches r (SortTags gs pl)) rs then [] else Escaped (SortTags gs pl)
    end
  else [].

Lemma own_data gs rs now lo hi : forall ls, exclusive gs rs ls -> forall i r, nth_error rs i = Some r ->
  data_for i (map (fate_of gs rs now lo hi) ls) = flat_map (own gs now lo hi r) ls.
Proof.
  induction ls as [|line ls IH]; intros Ex i r Hi; [reflexivity|]. unfold data_for in *. cbn [map flat_map].
  rewrite (IH (fun l i j ri rj Hl => Ex l i j ri rj (or_intror Hl)) i r Hi). f_equal. unfold fate_of, own.
  destruct (_ && _)%bool; [|reflexivity]. destruct (newParsedLine line) as [pl|] eqn:Ep; [|reflexivity]. cbv zeta.
  pose proof (LookupParsed_first rs (SortTags gs pl)) as X. destruct (LookupParsed rs (SortTags gs pl)) as [j|].
  - destruct X as ((q & Eq & Mq) & _). destruct (rule_matches r (SortTags gs pl)) eqn:M.
    + assert (j = i) as ->.
      { apply (Ex line j i q r); [left; reflexivity|exact Eq|exact Hi|exists pl; auto|exists pl; auto]. }
      rewrite Nat.eqb_refl. reflexivity.
    + destruct (Nat.eqb j i) eqn:E; [|reflexivity]. apply Nat.eqb_eq in E. subst j. congruence.
  - apply nth_error_In in Hi. destruct (rule_matches r (SortTags gs pl)) eqn:M; [|reflexivity]. exfalso. exact (X r Hi M).
Qed.
Lemma rest_junk gs rs now lo hi ls : junk_for (map (fate_of gs rs now lo hi) ls) = flat_map (rest_of gs now lo hi rs) ls.
Proof.
  induction ls as [|line ls IH]; [reflexivity|]. unfold junk_for in *. cbn [map flat_map]. rewrite IH. f_equal. unfold fate_of, rest_of.
  destruct (_ && _)%bool; [|reflexivity]. destruct (newParsedLine line) as [pl|] eqn:Ep; [|reflexivity]. cbv zeta.
  pose proof (LookupParsed_first rs (SortTags gs pl)) as X. destruct (LookupParsed rs (SortTags gs pl)) as [j|].
  - destruct X as ((q & Eq & Mq) & _). apply nth_error_In in Eq.
    replace (existsb (fun r => rule_matches r (SortTags gs pl)) rs) with true; [reflexivity|]. symmetry. apply existsb_exists. exists q. auto.
  - replace (existsb (fun r => rule_matches r (SortTags gs pl)) rs) with false; [reflexivity|]. symmetry.
    destruct (existsb _ rs) eqn:E; [|reflexivity]. apply existsb_exists in E as (q & Hq & M). exfalso. exact (X q Hq M).
Qed.
Lemma part_own (g : rule -> bytes) D : forall rs k, (forall i r, nth_error rs i = Some r -> D (k + i) = g r) ->
  part k rs D = flat_map (fun r => msg (r_subject r) (g r)) rs.
Proof.
  induction rs as [|r rs IH]; intros k H; [reflexivity|]. cbn [part flat_map]. rewrite (IH (S k)).
  - f_equal. f_equal. specialize (H 0 r eq_refl). rewrite Nat.add_0_r in H. exact H.
  - intros i q Hi. specialize (H (S i) q Hi). rewrite <- H. f_equal. lia.
Qed.
Lemma exclusive_published gs c oks now batch : exclusive gs (fc_rules c) (lines_of batch) ->
  published (snd (processBatch gs c oks now (newFilterWorker c) batch)) =
  flat_map (fun r => msg (r_subject r) (flat_map (own gs now (wrap64 (now - fc_delta c)) (wrap64 (now + fc_delta c)) r) (lines_of batch))) (fc_rules c) ++
  msg (fc_junk c) (flat_map (rest_of gs now (wrap64 (now - fc_delta c)) (wrap64 (now + fc_delta c)) (fc_rules c)) (lines_of batch)).
Proof.
  intros Ex. rewrite published_fun, outputs_part. unfold fates_of. rewrite rest_junk. f_equal.
  apply (part_own (fun r => flat_map (own gs now (wrap64 (now - fc_delta c)) (wrap64 (now + fc_delta c)) r) (lines_of batch))).
  intros i r Hi. apply own_data; assumption.
Qed.

Lemma existsb_perm {A} (g : A -> bool) l l' : Permutation l l' -> existsb g l = existsb g l'.
Proof.
  intros P. destruct (existsb g l) eqn:E.
  - apply existsb_exists in E as (x & Hx & G). symmetry. apply existsb_exists. exists x. split; [apply (Permutation_in _ P Hx)|exact G].
  - destruct (existsb g l') eqn:E'; [|reflexivity]. apply existsb_exists in E' as (x & Hx & G).
    assert (existsb g l = true) by (apply existsb_exists; exists x; split; [apply (Permutation_in _ (Permutation_sym P) Hx)|exact G]). congruence.
Qed.

Lemma exclusive_perm gs rs rs' lines : Permutation rs rs' -> exclusive gs rs lines -> exclusive gs rs' lines.
Proof.
  intros P Ex line i j ri rj Hl Hi Hj Fi Fj. apply Permutation_nth_error in P as (_ & g & Inj & G).
  rewrite G in Hi. rewrite G in Hj. apply Inj. exact (Ex line (g i) (g j) ri rj Hl Hi Hj Fi Fj).
Qed.

Lemma reorder_batch gs d rs rs' junk oks oks' now batch : Permutation rs rs' -> exclusive gs rs (lines_of batch) ->
  let c := mkFcfg d rs junk in let c' := mkFcfg d rs' junk in
  Permutation (published (snd (processBatch gs c oks now (newFilterWorker c) batch)))
              (published (snd (processBatch gs c' oks' now (newFilterWorker c') batch))).
Proof.
  intros P Ex. cbv zeta. rewrite !exclusive_published by (cbn [fc_rules]; first [exact Ex|apply (exclusive_perm gs rs rs'); assumption]).
  cbn [fc_rules fc_delta fc_junk]. apply Permutation_app.
  - apply Permutation_flat_map. exact P.
  - replace (flat_map (rest_of gs now (wrap64 (now - d)) (wrap64 (now + d)) rs') (lines_of batch))
      with (flat_map (rest_of gs now (wrap64 (now - d)) (wrap64 (now + d)) rs) (lines_of batch)); [apply Permutation_refl|].
    apply flat_map_ext. intros line. unfold rest_of. destruct (_ && _)%bool; [|reflexivity]. destruct (newParsedLine line); [|reflexivity].
    rewrite (existsb_perm _ rs rs' P). reflexivity.
Qed.

Lemma reorder gs d rs rs' junk js js' : Permutation rs rs' -> (forall j, In j js -> exclusive gs rs (lines_of (snd j))) -> Forall2 same_job js js' ->
  let c := mkFcfg d rs junk in let c' := mkFcfg d rs' junk in
  Permutation (published (snd (run_worker gs c (newFilterWorker c) js))) (published (snd (run_worker gs c' (newFilterWorker c') js'))).
Proof.
  intros P Ex F. cbv zeta. rewrite !run_published. induction F as [|j j' js js' [E1 E2] F IH]; [constructor|].
  cbn [flat_map]. rewrite <- E1, <- E2. apply Permutation_app.
  - apply reorder_batch; [exact P|]. apply Ex. left. reflexivity.
  - apply IH. intros k Hk. apply Ex. right. exact Hk.
Qed.

(** *** Only subjects are changed. *)
Lemma lookup_from_matchers pl : forall rs rs' k, map r_match rs = map r_match rs' -> lookup_from k rs pl = lookup_from k rs' pl.
Proof.
  induction rs as [|r rs IH]; intros [|r' rs'] k E; cbn [map] in E; try discriminate; [reflexivity|]. inversion E as [[Em Er]].
  cbn [lookup_from]. replace (rule_matches r' pl) with (rule_matches r pl) by (unfold rule_matches; rewrite Em; reflexivity).
  destruct (rule_matches r pl); [reflexivity|]. apply IH. exact Er.
Qed.
Lemma subjects gs d rs rs' junk junk' oks oks' now batch : map r_match rs = map r_match rs' ->
  let c := mkFcfg d rs junk in let c' := mkFcfg d rs' junk' in
  exists D : nat -> bytes, exists J : bytes,
    published (snd (processBatch gs c oks now (newFilterWorker c) batch)) = part 0 rs D ++ msg junk J /\
    published (snd (processBatch gs c' oks' now (newFilterWorker c') batch)) = part 0 rs' D ++ msg junk' J.
Proof.
  intros E. cbv zeta. rewrite !published_fun, !outputs_part. cbn [fc_rules fc_junk].
  assert (X : fates_of gs (mkFcfg d rs' junk') now batch = fates_of gs (mkFcfg d rs junk) now batch).
  { unfold fates_of. cbn [fc_rules fc_delta]. apply map_ext. intros line. unfold fate_of. destruct (_ && _)%bool; [|reflexivity].
    destruct (newParsedLine line); [|reflexivity]. cbv zeta. unfold LookupParsed. rewrite (lookup_from_matchers _ rs rs' 0 E). reflexivity. }
  rewrite X. eexists (fun i => data_for i _), _. split; reflexivity.
Qed.
Lemma part_data D : forall rs rs' k, length rs = length rs' -> map snd (part k rs D) = map snd (part k rs' D).
Proof.
  induction rs as [|r rs IH]; intros [|r' rs'] k E; cbn [length] in E; try discriminate; [reflexivity|]. cbn [part].
  rewrite !map_app, (IH rs') by lia. f_equal. unfold msg. destruct (D k); reflexivity.
Qed.

(** *** What fitting means, in terms of the line's own names and tags. *)
Lemma fits_means gs r line m tags rest : sorts gs -> ParseTags line = POk m tags rest -> clean [r] line ->
  exists text, sorted_text line m tags rest text /\ (fits_rule gs r line <-> means (r_match r) m tags text).
Proof.
  intros GS Hp C. pose proof (newParsedLine_iff line) as N. destruct (newParsedLine line) as [pl|] eqn:Ep; [|congruence].
  destruct N as (N & _). assert (E : POk m tags rest = POk (Measurement pl) (Tags pl) (Remainder pl)) by congruence.
  inversion E; subst m tags rest. clear E. destruct (C _ _ _ N) as [C1 C2].
  destruct (sort_line gs line _ _ _ GS N) as (pl' & tags' & Ep' & P & K & S1 & S2).
  assert (pl' = pl) as -> by congruence. exists (Escaped (SortTags gs pl)). split; [exists tags'; split; [exact P|split; [exact K|split; [apply S1|exact S2]]]|].
  pose proof (route_spec gs [r] line pl GS Ep C1 C2) as X. unfold LookupParsed in X. cbn [lookup_from] in X.
  assert (Fit : fits_rule gs r line <-> rule_matches r (SortTags gs pl) = true).
  { split; [intros (pl' & E & M); congruence|intros M; exists pl; auto]. }
  rewrite Fit. destruct (rule_matches r (SortTags gs pl)).
  - destruct X as ((q & Hq & M) & _). cbn in Hq. assert (q = r) as -> by congruence. split; [intros _; exact M|reflexivity].
  - split; [discriminate|]. intros M. exfalso. apply (X r); [left; reflexivity|exact M].
Qed.
Lemma unreadable gs r line : ParseTags line = PErr -> ~ fits_rule gs r line.
Proof.
  intros Hp (pl & Ep & _). pose proof (newParsedLine_iff line) as N. rewrite Ep in N. destruct N as (N & _). congruence.
Qed.

(** A rule that asks for more tags than an earlier one. *)
Lemma narrower gs d a r m ts ts' b junk js js' : In m a -> r_match m = MTags ts -> r_match r = MTags ts' -> incl ts ts' -> Forall2 same_job js js' ->
  let c := mkFcfg d (a ++ b) junk in let c' := mkFcfg d (a ++ r :: b) junk in
  published (snd (run_worker gs c' (newFilterWorker c') js')) = published (snd (run_worker gs c (newFilterWorker c) js)).
Proof.
  intros Hm Em Er I F. apply dead_rule; [|exact F]. intros line (pl & Ep & M). apply Exists_exists. exists m. split; [exact Hm|].
  exists pl. split; [exact Ep|]. unfold rule_matches in *. rewrite Em. rewrite Er in M. apply subset_iff. apply subset_iff in M.
  intros x Hx. apply M, I. exact Hx.
Qed.
