(** The cases of /repo/downsampler/avgbucket_small_test.go run on the model: evidence that the model agrees with the code,
    not part of any proof.  Generated by tools/gen_conf_avg.py.  strconv is an oracle in the model; here it is given by
    the literals which the tests use, floats being exact rationals. *)
From Coq Require Import QArith.
From Verif Require Import ConfTac Base Text Convert RulesSpec Avg.
Local Open Scope Z_scope.

Definition e78 : Q := inject_Z (10 ^ 78).
Definition conf_floats : list (bytes * Q) := [
  (lit "1.0", 1%Q); (lit "2.1", (21 # 10)%Q); (lit "3.2", (32 # 10)%Q); (lit "1", 1%Q); (lit "1.55", (155 # 100)%Q); (lit "2", 2%Q);
  (lit "1.2", (12 # 10)%Q); (lit "0.4", (4 # 10)%Q);
  (lit "-1.24e+78", ((-124 # 100) * e78)%Q); (lit "-1.30e+78", ((-130 # 100) * e78)%Q); (lit "-1.27e+78", ((-127 # 100) * e78)%Q)].
(** strconv.ParseFloat and FormatFloat on the literals of the tests; "1.0" and "-1.30e+78" are never printed. *)
Definition conf_parse (s : bytes) : option Q :=
  match find (fun p => beqs (fst p) s) conf_floats with Some p => Some (snd p) | None => None end.
Definition conf_format (q : Q) : bytes :=
  match find (fun p => Qeq_bool (snd p) q && negb (beqs (fst p) (lit "1.0"))) conf_floats with Some p => fst p | None => lit "?" end.
Definition foQ : floatOps := mkFloatOps Q Qplus Qminus Qdiv inject_Z conf_parse conf_format.

Definition lerr_eqb (a b : lerr) : bool :=
  match a, b with EInvalidField, EInvalidField | EMissingValue, EMissingValue | EQuoted, EQuoted | EWrongType, EWrongType => true | _, _ => false end.
Fixpoint same {A} (eqb : A -> A -> bool) (a b : list A) : bool :=
  match a, b with [], [] => true | x :: a', y :: b' => eqb x y && same eqb a' b' | _, _ => false end.
(** What assertBytes compares: the lines, in any order, each with the bucket's time. *)
Definition conf_lines (b : avgBucket foQ) (e : list bytes) : bool :=
  let out := concat (map (fun l => l ++ lit " 1500000000000000000" ++ [nl]) (isort bltb e)) in
  let order := isort (fun x y => bltb (fst x) (fst y)) b in
  beqs (bucketBytes foQ (@isort) 1500000000000000000 (map (fun x => (x, map fst (snd x))) order)) out.
Fixpoint conf_run (b : avgBucket foQ) (steps : list (bytes * list lerr * option (list bytes))) : bool :=
  match steps with
  | [] => true
  | (line, errs, out) :: steps' =>
      let (b', es) := AddLine foQ b line in
      same lerr_eqb es errs && match out with None => true | Some o => conf_lines b' o end && conf_run b' steps'
  end.

(** downsampler/avgbucket_small_test.go TestFloatField *)
Example conf_TestFloatField : conf_run [] [
  ((lit "foo,host=nyc01 bar=1.0"), [], Some [(lit "foo,host=nyc01 bar=1")]);
  ((lit "foo,host=nyc01 bar=2.1"), [], Some [(lit "foo,host=nyc01 bar=1.55")]);
  ((lit "foo,host=nyc01 bar=3.2"), [], Some [(lit "foo,host=nyc01 bar=2.1")])] = true.
Proof. vm_compute. reflexivity. Qed.

(** downsampler/avgbucket_small_test.go TestScientificFloatField *)
Example conf_TestScientificFloatField : conf_run [] [
  ((lit "foo,host=nyc01 sci=-1.24e+78"), [], Some [(lit "foo,host=nyc01 sci=-1.24e+78")]);
  ((lit "foo,host=nyc01 sci=-1.30e+78"), [], Some [(lit "foo,host=nyc01 sci=-1.27e+78")])] = true.
Proof. vm_compute. reflexivity. Qed.

(** downsampler/avgbucket_small_test.go TestFloatTypeChange *)
Example conf_TestFloatTypeChange : conf_run [] [
  ((lit "foo,dc=nyc x=1.2"), [], Some [(lit "foo,dc=nyc x=1.2")]);
  ((lit "foo,dc=nyc x=""foo"""), [EWrongType], Some [(lit "foo,dc=nyc x=1.2")])] = true.
Proof. vm_compute. reflexivity. Qed.

(** downsampler/avgbucket_small_test.go TestIntField *)
Example conf_TestIntField : conf_run [] [
  ((lit "foo,host=nyc01 bar=1i"), [], Some [(lit "foo,host=nyc01 bar=1i")]);
  ((lit "foo,host=nyc01 bar=3i"), [], Some [(lit "foo,host=nyc01 bar=2i")]);
  ((lit "foo,host=nyc01 bar=3i"), [], Some [(lit "foo,host=nyc01 bar=2i")])] = true.
Proof. vm_compute. reflexivity. Qed.

(** downsampler/avgbucket_small_test.go TestIntTypeChange *)
Example conf_TestIntTypeChange : conf_run [] [
  ((lit "foo,dc=nyc x=42i"), [], Some [(lit "foo,dc=nyc x=42i")]);
  ((lit "foo,dc=nyc x=""foo"""), [EWrongType], Some [(lit "foo,dc=nyc x=42i")])] = true.
Proof. vm_compute. reflexivity. Qed.

(** downsampler/avgbucket_small_test.go TestStringField *)
Example conf_TestStringField : conf_run [] [
  ((lit "foo,host=nyc01 bar=""alpha"""), [], Some [(lit "foo,host=nyc01 bar=""alpha""")]);
  ((lit "foo,host=nyc01 bar=""beta"""), [], Some [(lit "foo,host=nyc01 bar=""beta""")]);
  ((lit "foo,host=nyc01 bar=""delta omega"""), [], Some [(lit "foo,host=nyc01 bar=""delta omega""")]);
  ((lit "foo,host=nyc01 bar=""delta \""omega\"""""), [], Some [(lit "foo,host=nyc01 bar=""delta \""omega\""""")])] = true.
Proof. vm_compute. reflexivity. Qed.

(** downsampler/avgbucket_small_test.go TestUnterminatedStringField *)
Example conf_TestUnterminatedStringField : conf_run [] [
  ((lit "foo,host=nyc01 bar=""delta omega"), [EQuoted], Some [])] = true.
Proof. vm_compute. reflexivity. Qed.

(** downsampler/avgbucket_small_test.go TestOtherFieldValues *)
Example conf_TestOtherFieldValues : conf_run [] [
  ((lit "foo,host=nyc01 bar=false"), [], Some [(lit "foo,host=nyc01 bar=false")]);
  ((lit "foo,host=nyc01 bar=T"), [], Some [(lit "foo,host=nyc01 bar=T")]);
  ((lit "foo,host=nyc01 bar=abcdef"), [], Some [(lit "foo,host=nyc01 bar=abcdef")])] = true.
Proof. vm_compute. reflexivity. Qed.

(** downsampler/avgbucket_small_test.go TestMultipleFields *)
Example conf_TestMultipleFields : conf_run [] [
  ((lit "foo,host=nyc01 b=t,c=123i"), [], Some [(lit "foo,host=nyc01 b=t,c=123i")]);
  ((lit "foo,host=nyc01 c=321i,b=f"), [], Some [(lit "foo,host=nyc01 b=f,c=222i")]);
  ((lit "foo,host=nyc01 c=444i,b=f,a=0.4"), [], Some [(lit "foo,host=nyc01 a=0.4,b=f,c=296i")])] = true.
Proof. vm_compute. reflexivity. Qed.

(** downsampler/avgbucket_small_test.go TestMultipleTags *)
Example conf_TestMultipleTags : conf_run [] [
  ((lit "foo,dc=nyc,host=nyc01 b=t"), [], Some [(lit "foo,dc=nyc,host=nyc01 b=t")]);
  ((lit "foo,dc=nyc,host=nyc01 b=f"), [], Some [(lit "foo,dc=nyc,host=nyc01 b=f")])] = true.
Proof. vm_compute. reflexivity. Qed.

(** downsampler/avgbucket_small_test.go TestNoTags *)
Example conf_TestNoTags : conf_run [] [
  ((lit "foo b=t"), [], Some [(lit "foo b=t")]);
  ((lit "foo b=false"), [], Some [(lit "foo b=false")])] = true.
Proof. vm_compute. reflexivity. Qed.

(** downsampler/avgbucket_small_test.go TestMeasurementOnly *)
Example conf_TestMeasurementOnly : conf_run [] [
  ((lit "foo"), [], Some [(lit "foo")]);
  ((lit "bar"), [], Some [(lit "foo"); (lit "bar")])] = true.
Proof. vm_compute. reflexivity. Qed.

(** downsampler/avgbucket_small_test.go TestMeasurementAndTagsOnly *)
Example conf_TestMeasurementAndTagsOnly : conf_run [] [
  ((lit "foo,dc=nyc"), [], Some [(lit "foo,dc=nyc")]);
  ((lit "bar,dc=sfo"), [], Some [(lit "bar,dc=sfo"); (lit "foo,dc=nyc")])] = true.
Proof. vm_compute. reflexivity. Qed.

(** downsampler/avgbucket_small_test.go TestEscapingInMeasurement *)
Example conf_TestEscapingInMeasurement : conf_run [] [
  ((lit "fo\,o bar=1i"), [], Some [(lit "fo\,o bar=1i")])] = true.
Proof. vm_compute. reflexivity. Qed.

(** downsampler/avgbucket_small_test.go TestEscapingInTags *)
Example conf_TestEscapingInTags : conf_run [] [
  ((lit "foo,ab\ cd=ef\=gh bar=123i"), [], Some [(lit "foo,ab\ cd=ef\=gh bar=123i")])] = true.
Proof. vm_compute. reflexivity. Qed.

(** downsampler/avgbucket_small_test.go TestEscapingInFieldName *)
Example conf_TestEscapingInFieldName : conf_run [] [
  ((lit "foo ab\ cd=123i"), [], Some [(lit "foo ab\ cd=123i")])] = true.
Proof. vm_compute. reflexivity. Qed.

(** downsampler/avgbucket_small_test.go TestInvalidField *)
Example conf_TestInvalidField : conf_run [] [
  ((lit "foo x"), [EInvalidField], Some [])] = true.
Proof. vm_compute. reflexivity. Qed.

(** downsampler/avgbucket_small_test.go TestMissingFieldValue *)
Example conf_TestMissingFieldValue : conf_run [] [
  ((lit "foo x="), [EMissingValue], Some [])] = true.
Proof. vm_compute. reflexivity. Qed.

(** downsampler/avgbucket_small_test.go TestMultipleErrors *)
Example conf_TestMultipleErrors : conf_run [] [
  ((lit "foo x=1i,y=2"), [], None);
  ((lit "foo x=1,y=2i"), [EWrongType; EWrongType], Some [(lit "foo x=1i,y=2")])] = true.
Proof. vm_compute. reflexivity. Qed.
