(** The test vectors of /repo's unit tests for packages influx and convert, run on the model: evidence that the model
    agrees with the code, not part of any proof.  Generated by tools/gen_conf.py from the test sources. *)
From Verif Require Import ConfTac Base Text Timestamps Convert NumSpec RulesSpec FilterWorker.
Local Open Scope Z_scope.

(** influx/timestamps_small_test.go TestExtractTimestamp *)
Example conf_ExtractTimestamp : Forall (fun c => ExtractTimestamp (fst c) = snd c) [
  ((lit ""), ((-1), (-1)));
  ((lit " "), ((-1), (-1)));
  ((lit "weather temp=99"), ((-1), (-1)));
  ((lit "weather,city=paris temp=60"), ((-1), (-1)));
  ((lit "weather,city=paris temp=99,humidity=100"), ((-1), (-1)));
  ((lit "weather temp=99 12345"), (12345, 16));
  ((lit "weather temp=99 12345" ++ [nl] ++ lit ""), (12345, 16));
  ((lit "weather,city=paris temp=60 12345"), (12345, 27));
  ((lit "weather,city=paris temp=60,humidity=100 12345"), (12345, 40));
  ((lit "weather,city=paris temp=60,humidity=100 12345" ++ [nl] ++ lit ""), (12345, 40));
  ((lit "weather temp=99 -12345"), ((-12345), 16));
  ((lit "weather temp=99 12345 "), ((-1), (-1)));
  ((lit "weather temp=99 xxxxx"), ((-1), (-1)));
  ((lit "weather temp=99 15x07"), ((-1), (-1)));
  ((lit "weather temp=99 00000000000000000001"), ((-1), (-1)));
  ((lit "12345"), ((-1), (-1)))].
Proof. table. Qed.

(** influx/timestamps_small_test.go TestExtractNanos *)
Example conf_ExtractNanos : Forall (fun c => ExtractNanos (fst c) = snd c) [
  ((lit ""), ((-1), (-1)));
  ((lit " "), ((-1), (-1)));
  ((lit "weather temp=99"), ((-1), (-1)));
  ((lit "weather,city=paris temp=60"), ((-1), (-1)));
  ((lit "weather,city=paris temp=99,humidity=100"), ((-1), (-1)));
  ((lit "weather temp=99 865483382000000001"), (865483382000000001, 16));
  ((lit "weather temp=99 865483382000000001" ++ [nl] ++ lit ""), (865483382000000001, 16));
  ((lit "weather,city=paris temp=60 865483382000000001"), (865483382000000001, 27));
  ((lit "weather,city=paris temp=60,humidity=100 865483382000000001"), (865483382000000001, 40));
  ((lit "weather,city=paris temp=60,humidity=100 865483382000000001" ++ [nl] ++ lit ""), (865483382000000001, 40));
  ((lit "weather temp=99 -865483382000000001"), ((-865483382000000001), 16));
  ((lit "weather temp=99 865483382000000001 "), ((-1), (-1)));
  ((lit "weather temp=99 xxxxxxxxxxxxxxxxxxx"), ((-1), (-1)));
  ((lit "weather temp=99 152076148x803180202"), ((-1), (-1)));
  ((lit "weather temp=99 11520761485803180202"), ((-1), (-1)));
  ((lit "865483382000000001"), ((-1), (-1)))].
Proof. table. Qed.

(** influx/timestamps_small_test.go TestSafeCalcTime *)
Example conf_SafeCalcTime : Forall (fun c => SafeCalcTime (fst (fst c)) (snd (fst c)) = Some (snd c)) [
  ((946730096789012345, lit ""), 946730096789012345);
  ((946730096789012345, lit "n"), 946730096789012345);
  ((946730096789012, lit "u"), 946730096789012000);
  ((946730096789, lit "ms"), 946730096789000000);
  ((946730096, lit "s"), 946730096000000000);
  ((15778834, lit "m"), 946730040000000000);
  ((262980, lit "h"), 946728000000000000)].
Proof. table. Qed.

(** influx/timestamps_small_test.go TestSafeCalcTimeOutOfRange *)
Example conf_SafeCalcTime_range :
  Forall (fun t => SafeCalcTime t [] = None) [minInt64; minInt64 + 1; maxInt64] /\
  Forall (fun t => SafeCalcTime t [] <> None) [minInt64 + 2; maxInt64 - 1].
Proof. split; table. Qed.

(** influx/unescape_small_test.go TestUnescape *)
Example conf_Unescape : Forall (fun c => Unescape (fst c) = snd c) [
  ((lit ""), (lit ""));
  ((lit " "), (lit " "));
  ((lit ","), (lit ","));
  ((lit """"), (lit """"));
  ((lit "="), (lit "="));
  ((lit "h"), (lit "h"));
  ((lit "日"), (lit "日"));
  ((lit "hello"), (lit "hello"));
  ((lit "日本語"), (lit "日本語"));
  ((lit "\,"), (lit ","));
  ((lit "\"""), (lit """"));
  ((lit "\ "), (lit " "));
  ((lit "\="), (lit "="));
  ((lit "\,x"), (lit ",x"));
  ((lit "\""x"), (lit """x"));
  ((lit "\ x"), (lit " x"));
  ((lit "\=x"), (lit "=x"));
  ((lit "x\,"), (lit "x,"));
  ((lit "x\"""), (lit "x"""));
  ((lit "x\ "), (lit "x "));
  ((lit "x\="), (lit "x="));
  ((lit "\,\""\ \="), (lit ","" ="));
  ((lit "\,日\""本\ 語\="), (lit ",日""本 語="));
  ((lit "hell\o"), (lit "hell\o"));
  ((lit "\hello"), (lit "\hello"));
  ((lit "\日e\l\lo"), (lit "\日e\l\lo"));
  ((lit "he\\llo"), (lit "he\\llo"));
  ((lit "\"), (lit "\"));
  ((lit "\\"), (lit "\\"));
  ((lit "h\"), (lit "h\"));
  ((lit "日\"), (lit "日\"));
  ((lit "hello\"), (lit "hello\"))].
Proof. table. Qed.

(** influx/escape_small_test.go TestEscape *)
Example conf_Escape : Forall (fun c => Escape (snd (fst c)) (fst (fst c)) = snd c) [
  (((lit ""), (lit ",")), (lit ""));
  (((lit "h"), (lit ",")), (lit "h"));
  (((lit "日"), (lit ",")), (lit "日"));
  (((lit "hello"), (lit ",")), (lit "hello"));
  (((lit "日本語"), (lit ",")), (lit "日本語"));
  (((lit " "), (lit " ,""=")), (lit "\ "));
  (((lit ","), (lit " ,""=")), (lit "\,"));
  (((lit """"), (lit " ,""=")), (lit "\"""));
  (((lit "="), (lit " ,""=")), (lit "\="));
  (((lit "="), (lit ",")), (lit "="));
  (((lit ",x"), (lit " ,""=")), (lit "\,x"));
  (((lit "x,"), (lit " ,""=")), (lit "x\,"));
  (((lit """x"""), (lit " ,""=")), (lit "\""x\"""));
  (((lit " ,""="), (lit " ,""=")), (lit "\ \,\""\="));
  (((lit """stuff, =things"""), (lit " ,""=")), (lit "\""stuff\,\ \=things\"""));
  (((lit ",日""本 語="), (lit " ,""=")), (lit "\,日\""本\ 語\="))].
Proof. table. Qed.

(** influx/escape_small_test.go TestEscapeQuoted *)
Example conf_EscapeQuotedString : Forall (fun c => EscapeQuotedString (fst c) = snd c) [
  ((lit ""), (lit """"""));
  ((lit "h"), (lit """h"""));
  ((lit "foo bar"), (lit """foo bar"""));
  ((lit "foo ""bar"""), (lit """foo \""bar\"""""));
  ((lit """"), (lit """\"""""));
  ((lit """"""), (lit """\""\"""""))].
Proof. table. Qed.

(** influx/token_small_test.go TestToken *)
Example conf_Token : Forall (fun c => Token (snd (fst c)) (fst (fst c)) = snd c) [
  (((lit ""), (lit " ")), ((lit ""), (lit "")));
  (((lit "a"), (lit " ")), ((lit "a"), (lit "")));
  (((lit "日"), (lit " ")), ((lit "日"), (lit "")));
  (((lit "hello"), (lit " ")), ((lit "hello"), (lit "")));
  (((lit "日本語"), (lit " ")), ((lit "日本語"), (lit "")));
  (((lit " "), (lit ", ")), ((lit ""), (lit " ")));
  (((lit ","), (lit ", ")), ((lit ""), (lit ",")));
  (((lit "h world"), (lit ", ")), ((lit "h"), (lit " world")));
  (((lit "h,world"), (lit ", ")), ((lit "h"), (lit ",world")));
  (((lit "hello world"), (lit ", ")), ((lit "hello"), (lit " world")));
  (((lit "hello,world"), (lit ", ")), ((lit "hello"), (lit ",world")));
  (((lit "hello\ world more"), (lit ", ")), ((lit "hello world"), (lit " more")));
  (((lit "hello\,world,more"), (lit ", ")), ((lit "hello,world"), (lit ",more")));
  (((lit "hello\ 日本語 more"), (lit ", ")), ((lit "hello 日本語"), (lit " more")));
  (((lit "hello\,日本語,more"), (lit ", ")), ((lit "hello,日本語"), (lit ",more")));
  (((lit "\ "), (lit " ")), ((lit " "), (lit "")));
  (((lit "\"), (lit " ")), ((lit "\"), (lit "")));
  (((lit "hello\"), (lit " ")), ((lit "hello\"), (lit "")))].
Proof. table. Qed.

(** influx/token_small_test.go TestTokenEscaped *)
Example conf_TokenEscaped : Forall (fun c => TokenEscaped (snd (fst c)) (fst (fst c)) = snd c) [
  (((lit "hello\ world more"), (lit ", ")), ((lit "hello\ world"), (lit " more")));
  (((lit "hello\,world,more"), (lit ", ")), ((lit "hello\,world"), (lit ",more")));
  (((lit "\ "), (lit " ")), ((lit "\ "), (lit "")))].
Proof. table. Qed.

(** influx/token_small_test.go TestQuotedString *)
Example conf_QuotedString : Forall (fun c => QuotedString (fst c) = snd c) [
  ((lit """"""), QOk (lit "") (lit ""));
  ((lit """"" foo"), QOk (lit "") (lit " foo"));
  ((lit """a"""), QOk (lit "a") (lit ""));
  ((lit """hello"""), QOk (lit "hello") (lit ""));
  ((lit """hello"" foo"), QOk (lit "hello") (lit " foo"));
  ((lit """he\""llo"" foo"), QOk (lit "he""llo") (lit " foo"));
  ((lit """\"""""), QOk (lit """") (lit ""));
  ((lit """he\""llo"" foo"), QOk (lit "he""llo") (lit " foo"));
  ((lit """he\llo"" foo"), QOk (lit "he\llo") (lit " foo"));
  ((lit ""), QTooShort);
  ((lit """"), QTooShort);
  ((lit "abc"), QNoQuote);
  ((lit """foo"), QMissing);
  ((lit """foo\"""), QMissing)].
Proof. table. Qed.

(** influx/tags_small_test.go TestParseTags *)
Example conf_ParseTags : Forall (fun c => ParseTags (fst c) = snd c) [
  ((lit ""), POk (lit "") [] (lit ""));
  ((lit "foo"), POk (lit "foo") [] (lit ""));
  ((lit "foo x=22"), POk (lit "foo") [] (lit "x=22"));
  ((lit "foo x=22 y=true"), POk (lit "foo") [] (lit "x=22 y=true"));
  ((lit "foo,host=s1 x=22"), POk (lit "foo") [((lit "host"), (lit "s1"))] (lit "x=22"));
  ((lit "foo,host=s1,dc=nyc abc=22i xyz=3.141"), POk (lit "foo") [((lit "host"), (lit "s1")); ((lit "dc"), (lit "nyc"))] (lit "abc=22i xyz=3.141"));
  ((lit "foo,host=s1,dc=nyc"), POk (lit "foo") [((lit "host"), (lit "s1")); ((lit "dc"), (lit "nyc"))] (lit ""));
  ((lit "fo\,o,h\=ost=s\,1,\,dc=\ nyc abc=22i xyz=3.141"), POk (lit "fo,o") [((lit "h=ost"), (lit "s,1")); ((lit ",dc"), (lit " nyc"))] (lit "abc=22i xyz=3.141"));
  ((lit "foo,dc"), PErr);
  ((lit "foo,dc x=22"), PErr);
  ((lit "foo,dc,host=s1 x=22"), PErr);
  ((lit "foo,host=s1,dc x=22"), PErr);
  ((lit "foo,dc="), PErr)].
Proof. table. Qed.

(** influx/tags_small_test.go TestBytes *)
Example conf_TagsBytes : Forall (fun c => TagsBytes (fst c) = snd c) [
  ([((lit "foo"), (lit "bar"))], (lit "foo=bar"));
  ([((lit "foo"), (lit "0")); ((lit "bar"), (lit "1")); ((lit "sne"), (lit "2"))], (lit "foo=0,bar=1,sne=2"));
  ([((lit "foo=bar"), (lit "0")); ((lit "ba,r"), (lit "1")); ((lit "host"), (lit "a server"))], (lit "foo\=bar=0,ba\,r=1,host=a\ server"));
  ([], (lit ""))].
Proof. table. Qed.

(** influx/tags_small_test.go TestTagSetSorting *)
Example conf_sort : isort tagLess [(lit "foo", lit "0"); (lit "zeal", lit "2"); (lit "longer", lit "1"); (lit "bar", lit "3")] =
  [(lit "bar", lit "3"); (lit "foo", lit "0"); (lit "longer", lit "1"); (lit "zeal", lit "2")].
Proof. vm_compute. reflexivity. Qed.

(** influx/tags_small_test.go TestSubsetOf *)
Definition conf_tags : list tag := [(lit "foo", lit "0"); (lit "bar", lit "1"); (lit "sne", lit "2")].
Example conf_SubsetOf : map (SubsetOf conf_tags) [
    [(lit "sne", lit "2"); (lit "bar", lit "1"); (lit "foo", lit "0")];
    [(lit "sne", lit "2"); (lit "a", lit "3"); (lit "bar", lit "1"); (lit "foo", lit "0"); (lit "zzzzz", lit "4")];
    [(lit "sne", lit "2"); (lit "foo", lit "0")]; [(lit "q", lit "0")]; []] = [true; true; false; false; false] /\
  SubsetOf [] [(lit "foo", lit "bar")] = true.
Proof. vm_compute. auto. Qed.

(** convert/convert_small_test.go TestToInt *)
Example conf_ToInt : Forall (fun c => ToInt (fst c) = snd c) [
  ((lit "0"), Some 0);
  ((lit "-0"), Some 0);
  ((lit "1"), Some 1);
  ((lit "-1"), Some (-1));
  ((lit "9"), Some 9);
  ((lit "10"), Some 10);
  ((lit "99"), Some 99);
  ((lit "-99"), Some (-99));
  ((lit "101"), Some 101);
  ((lit "-101"), Some (-101));
  ((lit "9223372036854775807"), Some 9223372036854775807);
  ((lit "-9223372036854775808"), Some (-9223372036854775808));
  ((lit ""), None);
  ((lit "x"), None);
  ((lit "-"), None);
  ((lit "+2"), None);
  ((lit "9223372036854775808"), None);
  ((lit "-9223372036854775809"), None)].
Proof. table. Qed.

(** filter/timestamp_small_test.go TestExtractTimestamp (any default) *)
Example conf_filterTimestamp : Forall (fun c => filterTimestamp (fst c) 777 = snd c) [
  ((lit ""), 777);
  ((lit "weather,city=paris temp=60"), 777);
  ((lit "weather temp=99 865483382000000001"), 865483382000000001);
  ((lit "weather temp=99 865483382000000001" ++ [nl] ++ lit ""), 865483382000000001);
  ((lit "weather,city=paris temp=60,humidity=100 865483382000000001"), 865483382000000001);
  ((lit "weather,city=paris temp=60,humidity=100 865483382000000001" ++ [nl] ++ lit ""), 865483382000000001)].
Proof. table. Qed.
