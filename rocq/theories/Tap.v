(** Model of cmd/influx-spout-tap/influx-spout-tap.go. *)
From Verif Require Import Base LinesSpec FilterWorker FilterProofs.
Local Open Scope nat_scope.

Definition pct : ascii := "%"%char.

Section Tap.
  (** What fmt.Printf(s), without further arguments, writes. *)
  Variable printf : bytes -> bytes.

  (** influx-spout-tap.go:56-66 process: what a message prints; [re] is the regular expression of -e, if any,
      as a predicate. *)
  Definition process (re : option (bytes -> bool)) (data : bytes) : bytes :=
    flat_map (fun line => match re with
                          | Some m => if m line then printf line else []
                          | None => printf line
                          end) (SplitAfter data).
End Tap.

(** What the documentation of package fmt says about a format without verbs: copied; and two percent signs stand for one. *)
Definition prints (printf : bytes -> bytes) : Prop :=
  (forall s, ~ In pct s -> printf s = s) /\
  (forall a b, ~ In pct a -> printf (a ++ pct :: pct :: b) = a ++ pct :: printf b).

(** A function like this. *)
Fixpoint printf0 (s : bytes) : bytes :=
  match s with
  | [] => []
  | c :: r => if Ascii.eqb c pct then match r with
                                      | [] => lit "%!(NOVERB)"
                                      | d :: r' => if Ascii.eqb d pct then pct :: printf0 r' else pct :: "!"%char :: d :: lit "(MISSING)" ++ printf0 r'
                                      end
              else c :: printf0 r
  end.

Lemma printf0_prints : prints printf0.
Proof.
  split.
  - induction s as [|c s IH]; intros H; auto. cbn [printf0]. destruct (Ascii.eqb_spec c pct) as [->|N]; [destruct H; left; auto|].
    rewrite IH; auto. intros I. apply H. right; auto.
  - induction a as [|c a IH]; intros b H.
    + cbn [app printf0]. rewrite Ascii.eqb_refl. auto.
    + cbn [app printf0]. destruct (Ascii.eqb_spec c pct) as [->|N]; [destruct H; left; auto|]. rewrite IH; auto. intros I. apply H. right; auto.
Qed.

Lemma process_lines_printed printf re data : prints printf ->
  process printf re data = flat_map (fun l => if match re with Some m => m l | None => true end then printf l else []) (lines_of data).
Proof.
  intros [P _]. unfold process. rewrite <- (proj1 (SplitAfter_lines data)).
  assert (P0 : printf [] = []) by (apply P; auto).
  induction (SplitAfter data) as [|l ls IH]; auto. cbn [flat_map filter].
  destruct l as [|c l]; cbn [flat_map]; rewrite <- IH; clear IH.
  - destruct re as [m|]; [destruct (m [])|]; rewrite ?P0; auto.
  - destruct re as [m|]; auto.
Qed.

Lemma tap_verbatim printf re data : prints printf -> ~ In pct data ->
  process printf re data = concat (filter (fun l => match re with Some m => m l | None => true end) (lines_of data)).
Proof.
  intros H N. rewrite process_lines_printed by auto.
  assert (F : Forall (fun l => ~ In pct l) (lines_of data)).
  { apply Forall_forall. intros l I J. apply N. rewrite <- (lines_of_concat data). apply in_concat. eauto. }
  induction F as [|l ls Hl F IH]; auto. cbn [flat_map filter]. rewrite IH.
  destruct (match re with Some m => m l | None => true end); cbn [concat]; auto. destruct H as [P _]. rewrite P; auto.
Qed.

Lemma tap_garbles printf a b : prints printf -> ~ In pct a -> ~ In nl a -> ~ In pct b -> ~ In nl b ->
  process printf None (a ++ pct :: pct :: b ++ [nl]) = a ++ pct :: b ++ [nl].
Proof.
  intros H Pa Na Pb Nb. rewrite process_lines_printed by auto.
  assert (E : lines_of (a ++ pct :: pct :: b ++ [nl]) = [a ++ pct :: pct :: b ++ [nl]]).
  { replace (a ++ pct :: pct :: b ++ [nl]) with ((a ++ pct :: pct :: b) ++ [nl]) by (rewrite <- app_assoc; auto). apply single_line.
    intros I. apply in_app_or in I. destruct I as [I|[E|[E|I]]]; auto; discriminate. }
  rewrite E. cbn [flat_map]. rewrite app_nil_r. destruct H as [P1 P2]. rewrite P2; auto. rewrite P1; auto.
  intros I. apply in_app_or in I. destruct I as [I|[I|[]]]; auto. discriminate.
Qed.
