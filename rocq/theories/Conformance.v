(** GENERATED by tools/conformance.py from /repo/jscandec_test.go and
    /repo/jscandec_internal_test.go; do not edit.  Tests of the model against the
    repository's own test expectations; no theorem depends on this file.

    1244 decode cases in 128 groups (a group reuses one decoder), each run with string
    and with []byte input; 68 type-to-stack cases;
    655 number and string cases.  Not covered:
    - TestDecode2DSliceBool array_2d_bool_6m (line 667): string constant ('id', 'array2DBool6M')
    - TestDecodeSliceString array_str_1024_639k (line 1098): string constant ('id', 'arrayStr1024')
    - TestDecodeSliceFloat64 array_float_1024 (line 1255): string constant ('id', 'arrayFloat1024')
    - TestDecodeNumber testOKInt64 (line 3662): helper
    - TestDecodeNumber testOKInt64 (line 3663): helper
    - TestDecodeNumber testOKInt64 (line 3664): helper
    - TestDecodeNumber testOKInt64 (line 3665): helper
    - TestDecodeNumber testOKInt64 (line 3666): helper
    - TestDecodeNumber testOKInt64 (line 3667): helper
    - TestDecodeNumber testOKInt64 (line 3668): helper
    - TestDecodeNumber testOKInt64 (line 3669): helper
    - TestDecodeNumber testOKFloat64 (line 3683): helper
    - TestDecodeNumber testOKFloat64 (line 3684): helper
    - TestDecodeNumber testOKFloat64 (line 3685): helper
    - TestDecodeNumber testOKFloat64 (line 3686): helper
    - TestDecodeNumber testOKFloat64 (line 3687): helper
    - TestDecodeNumber testOKFloat64 (line 3688): helper
    - TestDecodeNumber testOKFloat64 (line 3689): helper
    - TestDecodeNumber testOKFloat64 (line 3690): helper
    - TestDecodeNumber testOKFloat64 (line 3691): helper
    - TestDecodeNumber testOKFloat64 (line 3692): helper
    - TestDecodeNumber testOKFloat64 (line 3693): helper
    - TestDecodeNumber testOKFloat64 (line 3694): helper
    - TestReadNumber computed input (line 14): not a literal
*)
From Verif Require Import Base NumSpec Atoi JsonNum Lookup Types AppendType Heap Machine World Dt Rec ConformLib ConformSpec.
Open Scope Z_scope.

(* TestDecodeBool *)
Definition g0 : group :=
  G [] [] (TBool) default_opts
   [K (bs "true") None (WOk (XB true));
    K (bs "false") None (WOk (XB false));
    K (bs "null") None (WOk (XB false));
    K (bs "1") None (WErr (Some 0) EUnexpected);
    K (bs "[]") None (WErr (Some 0) EUnexpected);
    K (bs """text""") None (WErr (Some 0) EUnexpected)].
Example g0_ideal : spec_group g0 = Some [].
Proof. vm_compute. reflexivity. Qed.
Example g0_conforms : (run_group false g0, run_group true g0) = ([], []).
Proof. vm_compute. reflexivity. Qed.
(* TestDecodeAny *)
Definition g1 : group :=
  G [] [] (TAny) default_opts
   [K (bs "0") None (WOk (XF 0 0));
    K (bs "42") None (WOk (XF 42 0));
    K (bs "3.1415") None (WOk (XF 31415 (-4)));
    K (bs "true") None (WOk (XB true));
    K (bs "false") None (WOk (XB false));
    K (bs """string""") None (WOk (XS (bs "string")));
    K (bs """\""\u30C4\""""") None (WOk (XS [34; 227; 131; 132; 34]));
    K (bs "null") None (WOk XNil);
    K (bs "[]") None (WOk (XL []));
    K (bs "[0,1,2]") None (WOk (XL [(XF 0 0); (XF 1 0); (XF 2 0)]));
    K (bs "[""a"", ""b"", ""\t""]") None (WOk (XL [(XS (bs "a")); (XS (bs "b")); (XS (bs "	"))]));
    K (bs "[true, false]") None (WOk (XL [(XB true); (XB false)]));
    K (bs "[null, null, null]") None (WOk (XL [XNil; XNil; XNil]));
    K (bs "{}") None (WOk (XM []));
    K (bs "[null, false, 42, ""x"", {}, true]") None (WOk (XL [XNil; (XB false); (XF 42 0); (XS (bs "x")); (XM []); (XB true)]));
    K (bs "{
		""num"":         42,
		""str"":         ""\""text\u30C4\u044B\"""",
		""bool_true"":   true,
		""bool_false"":  false,
		""array_empty"": [],
		""array_mix"":   [null, false, 42, ""\/\r\n"", {}, true],
		""null"":        null
	}") None (WOk (XM [((XS (bs "num")), (XF 42 0)); ((XS (bs "str")), (XS [34; 116; 101; 120; 116; 227; 131; 132; 209; 139; 34])); ((XS (bs "bool_true")), (XB true)); ((XS (bs "bool_false")), (XB false)); ((XS (bs "array_empty")), (XL [])); ((XS (bs "array_mix")), (XL [XNil; (XB false); (XF 42 0); (XS [47; 13; 10]); (XM []); (XB true)])); ((XS (bs "null")), XNil)]));
    K (bs "true") (Some XIgn) (WOk (XB true));
    K (bs "42") (Some (XB true)) (WOk (XF 42 0));
    K (bs "{""id"":42,""name"":""John""}") (Some XIgn) (WOk (XM [((XS (bs "id")), (XF 42 0)); ((XS (bs "name")), (XS (bs "John")))]));
    K (bs "42") (Some XIgn) (WOk (XF 42 0));
    K (bs "[{""name"":""John""}]") (Some XIgn) (WOk (XL [(XM [((XS (bs "name")), (XS (bs "John")))])]));
    K (bs "null") (Some XIgn) (WOk XNil);
    K (bs "1e309") None (WErr (Some 0) EParse)].
Example g1_ideal : spec_group g1 = Some [].
Proof. vm_compute. reflexivity. Qed.
Example g1_conforms : (run_group false g1, run_group true g1) = ([], []).
Proof. vm_compute. reflexivity. Qed.
(* TestDecodeUint *)
Definition g2 : group :=
  G [] [] (TInt (NK false WWord)) default_opts
   [K (bs "null") None (WOk (XI 0));
    K (bs "0") None (WOk (XI 0));
    K (bs "1") None (WOk (XI 1));
    K (bs "2147483647") None (WOk (XI 2147483647));
    K (bs "18446744073709551615") None (WOk (XI 18446744073709551615));
    K (bs "18446744073709551616") None (WErr (Some 0) EOverflow);
    K (bs "111111111111111111111") None (WErr (Some 0) EOverflow);
    K (bs "-1") None (WErr (Some 0) EUnexpected);
    K (bs """text""") None (WErr (Some 0) EUnexpected);
    K (bs "true") None (WErr (Some 0) EUnexpected);
    K (bs "false") None (WErr (Some 0) EUnexpected);
    K (bs "-1") None (WErr (Some 0) EUnexpected);
    K (bs "0.1") None (WErr (Some 0) EUnexpected);
    K (bs "1e2") None (WErr (Some 0) EUnexpected);
    K (bs "[]") None (WErr (Some 0) EUnexpected)].
Example g2_ideal : spec_group g2 = Some [].
Proof. vm_compute. reflexivity. Qed.
Example g2_conforms : (run_group false g2, run_group true g2) = ([], []).
Proof. vm_compute. reflexivity. Qed.
(* TestDecodeInt *)
Definition g3 : group :=
  G [] [] (TInt (NK true WWord)) default_opts
   [K (bs "null") None (WOk (XI 0));
    K (bs "0") None (WOk (XI 0));
    K (bs "1") None (WOk (XI 1));
    K (bs "-1") None (WOk (XI (-1)));
    K (bs "-2147483648") None (WOk (XI (-2147483648)));
    K (bs "2147483647") None (WOk (XI 2147483647));
    K (bs "-9223372036854775808") None (WOk (XI (-9223372036854775808)));
    K (bs "9223372036854775807") None (WOk (XI 9223372036854775807));
    K (bs "9223372036854775808") None (WErr (Some 0) EOverflow);
    K (bs "-9223372036854775809") None (WErr (Some 0) EOverflow);
    K (bs """text""") None (WErr (Some 0) EUnexpected);
    K (bs "true") None (WErr (Some 0) EUnexpected);
    K (bs "false") None (WErr (Some 0) EUnexpected);
    K (bs "[]") None (WErr (Some 0) EUnexpected)].
Example g3_ideal : spec_group g3 = Some [].
Proof. vm_compute. reflexivity. Qed.
Example g3_conforms : (run_group false g3, run_group true g3) = ([], []).
Proof. vm_compute. reflexivity. Qed.
(* TestDecodeFloat32 *)
Definition g4 : group :=
  G [] [] (TFloat B32) default_opts
   [K (bs "null") None (WOk (XF 0 0));
    K (bs "0") None (WOk (XF 0 0));
    K (bs "1") None (WOk (XF 1 0));
    K (bs "-1") None (WOk (XF (-1) 0));
    K (bs "-16777215") None (WOk (XF (-16777215) 0));
    K (bs "16777215") None (WOk (XF 16777215 0));
    K (bs "3.1415927") None (WOk (XF 31415927 (-7)));
    K (bs "-3.1415927") None (WOk (XF (-31415927) (-7)));
    K (bs "3.4028235e38") None (WOk (XF 34028235 31));
    K (bs "1.4e-45") None (WOk (XF 14 (-46)));
    K (bs "3.4e38") None (WOk (XF 34 37));
    K (bs "-3.4e38") None (WOk (XF (-34) 37));
    K (bs "6.022e23") None (WOk (XF 6022 20));
    K (bs "3.5e38") None (WErr (Some 0) EParse);
    K (bs """text""") None (WErr (Some 0) EUnexpected);
    K (bs "true") None (WErr (Some 0) EUnexpected);
    K (bs "false") None (WErr (Some 0) EUnexpected);
    K (bs "[]") None (WErr (Some 0) EUnexpected)].
Example g4_ideal : spec_group g4 = Some [].
Proof. vm_compute. reflexivity. Qed.
Example g4_conforms : (run_group false g4, run_group true g4) = ([], []).
Proof. vm_compute. reflexivity. Qed.
(* TestDecodeFloat64 *)
Definition g5 : group :=
  G [] [] (TFloat B64) default_opts
   [K (bs "null") None (WOk (XF 0 0));
    K (bs "0") None (WOk (XF 0 0));
    K (bs "1") None (WOk (XF 1 0));
    K (bs "-1") None (WOk (XF (-1) 0));
    K (bs "1.0") None (WOk (XF 1 0));
    K (bs "1.000000003") None (WOk (XF 1000000003 (-9)));
    K (bs "9007199254740991") None (WOk (XF 9007199254740991 0));
    K (bs "-9007199254740991") None (WOk (XF (-9007199254740991) 0));
    K (bs "3.141592653589793238462643383279502884197") None (WOk (XF 3141592653589793238462643383279502884197 (-39)));
    K (bs "-3.141592653589793238462643383279502884197") None (WOk (XF (-3141592653589793238462643383279502884197) (-39)));
    K (bs "3.4028235e38") None (WOk (XF 34028235 31));
    K (bs "1.7976931348623157e308") None (WOk (XF 17976931348623157 292));
    K (bs "1.7976931348623157e-308") None (WOk (XF 17976931348623157 (-324)));
    K (bs "1.4e-45") None (WOk (XF 14 (-46)));
    K (bs "-1.7976931348623157e308") None (WOk (XF (-17976931348623157) 292));
    K (bs "3.4e38") None (WOk (XF 34 37));
    K (bs "-3.4e38") None (WOk (XF (-34) 37));
    K (bs "6.022e23") None (WOk (XF 6022 20));
    K (bs "1e309") None (WErr (Some 0) EParse);
    K (bs """text""") None (WErr (Some 0) EUnexpected);
    K (bs "true") None (WErr (Some 0) EUnexpected);
    K (bs "false") None (WErr (Some 0) EUnexpected);
    K (bs "[]") None (WErr (Some 0) EUnexpected)].
Example g5_ideal : spec_group g5 = Some [].
Proof. vm_compute. reflexivity. Qed.
Example g5_conforms : (run_group false g5, run_group true g5) = ([], []).
Proof. vm_compute. reflexivity. Qed.
(* TestDecodeUint64 *)
Definition g6 : group :=
  G [] [] (TInt (NK false W64)) default_opts
   [K (bs "null") None (WOk (XI 0));
    K (bs "0") None (WOk (XI 0));
    K (bs "1") None (WOk (XI 1));
    K (bs "2147483647") None (WOk (XI 2147483647));
    K (bs "4294967295") None (WOk (XI 4294967295));
    K (bs "18446744073709551615") None (WOk (XI 18446744073709551615));
    K (bs "18446744073709551616") None (WErr (Some 0) EOverflow);
    K (bs "19000000000000000000") None (WErr (Some 0) EOverflow);
    K (bs "111111111111111111111") None (WErr (Some 0) EOverflow);
    K (bs "-1") None (WErr (Some 0) EUnexpected);
    K (bs """text""") None (WErr (Some 0) EUnexpected);
    K (bs "true") None (WErr (Some 0) EUnexpected);
    K (bs "false") None (WErr (Some 0) EUnexpected);
    K (bs "[]") None (WErr (Some 0) EUnexpected)].
Example g6_ideal : spec_group g6 = Some [].
Proof. vm_compute. reflexivity. Qed.
Example g6_conforms : (run_group false g6, run_group true g6) = ([], []).
Proof. vm_compute. reflexivity. Qed.
(* TestDecodeInt64 *)
Definition g7 : group :=
  G [] [] (TInt (NK true W64)) default_opts
   [K (bs "null") None (WOk (XI 0));
    K (bs "0") None (WOk (XI 0));
    K (bs "1") None (WOk (XI 1));
    K (bs "-1") None (WOk (XI (-1)));
    K (bs "-2147483648") None (WOk (XI (-2147483648)));
    K (bs "2147483647") None (WOk (XI 2147483647));
    K (bs "-9223372036854775808") None (WOk (XI (-9223372036854775808)));
    K (bs "9223372036854775807") None (WOk (XI 9223372036854775807));
    K (bs "9223372036854775808") None (WErr (Some 0) EOverflow);
    K (bs "-9223372036854775809") None (WErr (Some 0) EOverflow);
    K (bs """text""") None (WErr (Some 0) EUnexpected);
    K (bs "true") None (WErr (Some 0) EUnexpected);
    K (bs "false") None (WErr (Some 0) EUnexpected);
    K (bs "[]") None (WErr (Some 0) EUnexpected)].
Example g7_ideal : spec_group g7 = Some [].
Proof. vm_compute. reflexivity. Qed.
Example g7_conforms : (run_group false g7, run_group true g7) = ([], []).
Proof. vm_compute. reflexivity. Qed.
(* TestDecodeUint32 *)
Definition g8 : group :=
  G [] [] (TInt (NK false W32)) default_opts
   [K (bs "null") None (WOk (XI 0));
    K (bs "0") None (WOk (XI 0));
    K (bs "1") None (WOk (XI 1));
    K (bs "4294967295") None (WOk (XI 4294967295));
    K (bs "4294967296") None (WErr (Some 0) EOverflow);
    K (bs "5000000000") None (WErr (Some 0) EOverflow);
    K (bs "11111111111") None (WErr (Some 0) EOverflow);
    K (bs "-1") None (WErr (Some 0) EUnexpected);
    K (bs """text""") None (WErr (Some 0) EUnexpected);
    K (bs "true") None (WErr (Some 0) EUnexpected);
    K (bs "false") None (WErr (Some 0) EUnexpected);
    K (bs "[]") None (WErr (Some 0) EUnexpected)].
Example g8_ideal : spec_group g8 = Some [].
Proof. vm_compute. reflexivity. Qed.
Example g8_conforms : (run_group false g8, run_group true g8) = ([], []).
Proof. vm_compute. reflexivity. Qed.
(* TestDecodeInt32 *)
Definition g9 : group :=
  G [] [] (TInt (NK true W32)) default_opts
   [K (bs "null") None (WOk (XI 0));
    K (bs "0") None (WOk (XI 0));
    K (bs "1") None (WOk (XI 1));
    K (bs "-1") None (WOk (XI (-1)));
    K (bs "-2147483648") None (WOk (XI (-2147483648)));
    K (bs "2147483647") None (WOk (XI 2147483647));
    K (bs "2147483648") None (WErr (Some 0) EOverflow);
    K (bs "-2147483649") None (WErr (Some 0) EOverflow);
    K (bs """text""") None (WErr (Some 0) EUnexpected);
    K (bs "true") None (WErr (Some 0) EUnexpected);
    K (bs "false") None (WErr (Some 0) EUnexpected);
    K (bs "[]") None (WErr (Some 0) EUnexpected)].
Example g9_ideal : spec_group g9 = Some [].
Proof. vm_compute. reflexivity. Qed.
Example g9_conforms : (run_group false g9, run_group true g9) = ([], []).
Proof. vm_compute. reflexivity. Qed.
(* TestDecodeUint16 *)
Definition g10 : group :=
  G [] [] (TInt (NK false W16)) default_opts
   [K (bs "null") None (WOk (XI 0));
    K (bs "0") None (WOk (XI 0));
    K (bs "1") None (WOk (XI 1));
    K (bs "65535") None (WOk (XI 65535));
    K (bs "65536") None (WErr (Some 0) EOverflow);
    K (bs "70000") None (WErr (Some 0) EOverflow);
    K (bs "111111") None (WErr (Some 0) EOverflow);
    K (bs "-1") None (WErr (Some 0) EUnexpected);
    K (bs """text""") None (WErr (Some 0) EUnexpected);
    K (bs "true") None (WErr (Some 0) EUnexpected);
    K (bs "false") None (WErr (Some 0) EUnexpected);
    K (bs "[]") None (WErr (Some 0) EUnexpected)].
Example g10_ideal : spec_group g10 = Some [].
Proof. vm_compute. reflexivity. Qed.
Example g10_conforms : (run_group false g10, run_group true g10) = ([], []).
Proof. vm_compute. reflexivity. Qed.
(* TestDecodeInt16 *)
Definition g11 : group :=
  G [] [] (TInt (NK true W16)) default_opts
   [K (bs "null") None (WOk (XI 0));
    K (bs "0") None (WOk (XI 0));
    K (bs "1") None (WOk (XI 1));
    K (bs "-1") None (WOk (XI (-1)));
    K (bs "-32768") None (WOk (XI (-32768)));
    K (bs "32767") None (WOk (XI 32767));
    K (bs "32768") None (WErr (Some 0) EOverflow);
    K (bs "-32769") None (WErr (Some 0) EOverflow);
    K (bs """text""") None (WErr (Some 0) EUnexpected);
    K (bs "true") None (WErr (Some 0) EUnexpected);
    K (bs "false") None (WErr (Some 0) EUnexpected);
    K (bs "[]") None (WErr (Some 0) EUnexpected)].
Example g11_ideal : spec_group g11 = Some [].
Proof. vm_compute. reflexivity. Qed.
Example g11_conforms : (run_group false g11, run_group true g11) = ([], []).
Proof. vm_compute. reflexivity. Qed.
(* TestDecodeUint8 *)
Definition g12 : group :=
  G [] [] (TInt (NK false W8)) default_opts
   [K (bs "null") None (WOk (XI 0));
    K (bs "0") None (WOk (XI 0));
    K (bs "1") None (WOk (XI 1));
    K (bs "255") None (WOk (XI 255));
    K (bs "256") None (WErr (Some 0) EOverflow);
    K (bs "300") None (WErr (Some 0) EOverflow);
    K (bs "1111") None (WErr (Some 0) EOverflow);
    K (bs "-1") None (WErr (Some 0) EUnexpected);
    K (bs """text""") None (WErr (Some 0) EUnexpected);
    K (bs "true") None (WErr (Some 0) EUnexpected);
    K (bs "false") None (WErr (Some 0) EUnexpected);
    K (bs "[]") None (WErr (Some 0) EUnexpected)].
Example g12_ideal : spec_group g12 = Some [].
Proof. vm_compute. reflexivity. Qed.
Example g12_conforms : (run_group false g12, run_group true g12) = ([], []).
Proof. vm_compute. reflexivity. Qed.
(* TestDecodeInt8 *)
Definition g13 : group :=
  G [] [] (TInt (NK true W8)) default_opts
   [K (bs "null") None (WOk (XI 0));
    K (bs "0") None (WOk (XI 0));
    K (bs "1") None (WOk (XI 1));
    K (bs "-1") None (WOk (XI (-1)));
    K (bs "-128") None (WOk (XI (-128)));
    K (bs "127") None (WOk (XI 127));
    K (bs "128") None (WErr (Some 0) EOverflow);
    K (bs "-129") None (WErr (Some 0) EOverflow);
    K (bs """text""") None (WErr (Some 0) EUnexpected);
    K (bs "true") None (WErr (Some 0) EUnexpected);
    K (bs "false") None (WErr (Some 0) EUnexpected);
    K (bs "[]") None (WErr (Some 0) EUnexpected)].
Example g13_ideal : spec_group g13 = Some [].
Proof. vm_compute. reflexivity. Qed.
Example g13_conforms : (run_group false g13, run_group true g13) = ([], []).
Proof. vm_compute. reflexivity. Qed.
(* TestDecodeNull *)
Definition g14 : group :=
  G [] [] (TStr) default_opts
   [K (bs "null") None (WOk (XS []))].
Example g14_ideal : spec_group g14 = Some [].
Proof. vm_compute. reflexivity. Qed.
Example g14_conforms : (run_group false g14, run_group true g14) = ([], []).
Proof. vm_compute. reflexivity. Qed.
(* TestDecodeNull *)
Definition g15 : group :=
  G [] [] (TBool) default_opts
   [K (bs "null") None (WOk (XB false))].
Example g15_ideal : spec_group g15 = Some [].
Proof. vm_compute. reflexivity. Qed.
Example g15_conforms : (run_group false g15, run_group true g15) = ([], []).
Proof. vm_compute. reflexivity. Qed.
(* TestDecodeNull *)
Definition g16 : group :=
  G [] [] (TInt (NK true WWord)) default_opts
   [K (bs "null") None (WOk (XI 0))].
Example g16_ideal : spec_group g16 = Some [].
Proof. vm_compute. reflexivity. Qed.
Example g16_conforms : (run_group false g16, run_group true g16) = ([], []).
Proof. vm_compute. reflexivity. Qed.
(* TestDecodeNull *)
Definition g17 : group :=
  G [] [] (TInt (NK true W8)) default_opts
   [K (bs "null") None (WOk (XI 0))].
Example g17_ideal : spec_group g17 = Some [].
Proof. vm_compute. reflexivity. Qed.
Example g17_conforms : (run_group false g17, run_group true g17) = ([], []).
Proof. vm_compute. reflexivity. Qed.
(* TestDecodeNull *)
Definition g18 : group :=
  G [] [] (TInt (NK true W16)) default_opts
   [K (bs "null") None (WOk (XI 0))].
Example g18_ideal : spec_group g18 = Some [].
Proof. vm_compute. reflexivity. Qed.
Example g18_conforms : (run_group false g18, run_group true g18) = ([], []).
Proof. vm_compute. reflexivity. Qed.
(* TestDecodeNull *)
Definition g19 : group :=
  G [] [] (TInt (NK true W32)) default_opts
   [K (bs "null") None (WOk (XI 0))].
Example g19_ideal : spec_group g19 = Some [].
Proof. vm_compute. reflexivity. Qed.
Example g19_conforms : (run_group false g19, run_group true g19) = ([], []).
Proof. vm_compute. reflexivity. Qed.
(* TestDecodeNull *)
Definition g20 : group :=
  G [] [] (TInt (NK true W64)) default_opts
   [K (bs "null") None (WOk (XI 0))].
Example g20_ideal : spec_group g20 = Some [].
Proof. vm_compute. reflexivity. Qed.
Example g20_conforms : (run_group false g20, run_group true g20) = ([], []).
Proof. vm_compute. reflexivity. Qed.
(* TestDecodeNull *)
Definition g21 : group :=
  G [] [] (TInt (NK false WWord)) default_opts
   [K (bs "null") None (WOk (XI 0))].
Example g21_ideal : spec_group g21 = Some [].
Proof. vm_compute. reflexivity. Qed.
Example g21_conforms : (run_group false g21, run_group true g21) = ([], []).
Proof. vm_compute. reflexivity. Qed.
(* TestDecodeNull *)
Definition g22 : group :=
  G [] [] (TInt (NK false W8)) default_opts
   [K (bs "null") None (WOk (XI 0))].
Example g22_ideal : spec_group g22 = Some [].
Proof. vm_compute. reflexivity. Qed.
Example g22_conforms : (run_group false g22, run_group true g22) = ([], []).
Proof. vm_compute. reflexivity. Qed.
(* TestDecodeNull *)
Definition g23 : group :=
  G [] [] (TInt (NK false W16)) default_opts
   [K (bs "null") None (WOk (XI 0))].
Example g23_ideal : spec_group g23 = Some [].
Proof. vm_compute. reflexivity. Qed.
Example g23_conforms : (run_group false g23, run_group true g23) = ([], []).
Proof. vm_compute. reflexivity. Qed.
(* TestDecodeNull *)
Definition g24 : group :=
  G [] [] (TInt (NK false W32)) default_opts
   [K (bs "null") None (WOk (XI 0))].
Example g24_ideal : spec_group g24 = Some [].
Proof. vm_compute. reflexivity. Qed.
Example g24_conforms : (run_group false g24, run_group true g24) = ([], []).
Proof. vm_compute. reflexivity. Qed.
(* TestDecodeNull *)
Definition g25 : group :=
  G [] [] (TInt (NK false W64)) default_opts
   [K (bs "null") None (WOk (XI 0))].
Example g25_ideal : spec_group g25 = Some [].
Proof. vm_compute. reflexivity. Qed.
Example g25_conforms : (run_group false g25, run_group true g25) = ([], []).
Proof. vm_compute. reflexivity. Qed.
(* TestDecodeNull *)
Definition g26 : group :=
  G [] [] (TFloat B32) default_opts
   [K (bs "null") None (WOk (XF 0 0))].
Example g26_ideal : spec_group g26 = Some [].
Proof. vm_compute. reflexivity. Qed.
Example g26_conforms : (run_group false g26, run_group true g26) = ([], []).
Proof. vm_compute. reflexivity. Qed.
(* TestDecodeNull *)
Definition g27 : group :=
  G [] [] (TFloat B64) default_opts
   [K (bs "null") None (WOk (XF 0 0))].
Example g27_ideal : spec_group g27 = Some [].
Proof. vm_compute. reflexivity. Qed.
Example g27_conforms : (run_group false g27, run_group true g27) = ([], []).
Proof. vm_compute. reflexivity. Qed.
(* TestDecodeNull *)
Definition g28 : group :=
  G [] [] (TSlice (TBool)) default_opts
   [K (bs "null") None (WOk XNil)].
Example g28_ideal : spec_group g28 = Some [].
Proof. vm_compute. reflexivity. Qed.
Example g28_conforms : (run_group false g28, run_group true g28) = ([], []).
Proof. vm_compute. reflexivity. Qed.
(* TestDecodeNull *)
Definition g29 : group :=
  G [] [] (TSlice (TStr)) default_opts
   [K (bs "null") None (WOk XNil)].
Example g29_ideal : spec_group g29 = Some [].
Proof. vm_compute. reflexivity. Qed.
Example g29_conforms : (run_group false g29, run_group true g29) = ([], []).
Proof. vm_compute. reflexivity. Qed.
(* TestDecodeNull *)
Definition g30 : group :=
  G [] [] (TSlice (TBool)) default_opts
   [K (bs "[null]") None (WOk (XL [(XB false)]))].
Example g30_ideal : spec_group g30 = Some [].
Proof. vm_compute. reflexivity. Qed.
Example g30_conforms : (run_group false g30, run_group true g30) = ([], []).
Proof. vm_compute. reflexivity. Qed.
(* TestDecodeNull *)
Definition g31 : group :=
  G [] [] (TSlice (TStr)) default_opts
   [K (bs "[null]") None (WOk (XL [(XS [])]))].
Example g31_ideal : spec_group g31 = Some [].
Proof. vm_compute. reflexivity. Qed.
Example g31_conforms : (run_group false g31, run_group true g31) = ([], []).
Proof. vm_compute. reflexivity. Qed.
(* TestDecodeNull *)
Definition g32 : group :=
  G [] [] (TSlice (TInt (NK true WWord))) default_opts
   [K (bs "[null]") None (WOk (XL [(XI 0)]))].
Example g32_ideal : spec_group g32 = Some [].
Proof. vm_compute. reflexivity. Qed.
Example g32_conforms : (run_group false g32, run_group true g32) = ([], []).
Proof. vm_compute. reflexivity. Qed.
(* TestDecodeNull *)
Definition g33 : group :=
  G [] [] (TSlice (TInt (NK true W8))) default_opts
   [K (bs "[null]") None (WOk (XL [(XI 0)]))].
Example g33_ideal : spec_group g33 = Some [].
Proof. vm_compute. reflexivity. Qed.
Example g33_conforms : (run_group false g33, run_group true g33) = ([], []).
Proof. vm_compute. reflexivity. Qed.
(* TestDecodeNull *)
Definition g34 : group :=
  G [] [] (TSlice (TInt (NK true W16))) default_opts
   [K (bs "[null]") None (WOk (XL [(XI 0)]))].
Example g34_ideal : spec_group g34 = Some [].
Proof. vm_compute. reflexivity. Qed.
Example g34_conforms : (run_group false g34, run_group true g34) = ([], []).
Proof. vm_compute. reflexivity. Qed.
(* TestDecodeNull *)
Definition g35 : group :=
  G [] [] (TSlice (TInt (NK true W32))) default_opts
   [K (bs "[null]") None (WOk (XL [(XI 0)]))].
Example g35_ideal : spec_group g35 = Some [].
Proof. vm_compute. reflexivity. Qed.
Example g35_conforms : (run_group false g35, run_group true g35) = ([], []).
Proof. vm_compute. reflexivity. Qed.
(* TestDecodeNull *)
Definition g36 : group :=
  G [] [] (TSlice (TInt (NK true W64))) default_opts
   [K (bs "[null]") None (WOk (XL [(XI 0)]))].
Example g36_ideal : spec_group g36 = Some [].
Proof. vm_compute. reflexivity. Qed.
Example g36_conforms : (run_group false g36, run_group true g36) = ([], []).
Proof. vm_compute. reflexivity. Qed.
(* TestDecodeNull *)
Definition g37 : group :=
  G [] [] (TSlice (TInt (NK false WWord))) default_opts
   [K (bs "[null]") None (WOk (XL [(XI 0)]))].
Example g37_ideal : spec_group g37 = Some [].
Proof. vm_compute. reflexivity. Qed.
Example g37_conforms : (run_group false g37, run_group true g37) = ([], []).
Proof. vm_compute. reflexivity. Qed.
(* TestDecodeNull *)
Definition g38 : group :=
  G [] [] (TSlice (TInt (NK false W8))) default_opts
   [K (bs "[null]") None (WOk (XL [(XI 0)]))].
Example g38_ideal : spec_group g38 = Some [].
Proof. vm_compute. reflexivity. Qed.
Example g38_conforms : (run_group false g38, run_group true g38) = ([], []).
Proof. vm_compute. reflexivity. Qed.
(* TestDecodeNull *)
Definition g39 : group :=
  G [] [] (TSlice (TInt (NK false W16))) default_opts
   [K (bs "[null]") None (WOk (XL [(XI 0)]))].
Example g39_ideal : spec_group g39 = Some [].
Proof. vm_compute. reflexivity. Qed.
Example g39_conforms : (run_group false g39, run_group true g39) = ([], []).
Proof. vm_compute. reflexivity. Qed.
(* TestDecodeNull *)
Definition g40 : group :=
  G [] [] (TSlice (TInt (NK false W32))) default_opts
   [K (bs "[null]") None (WOk (XL [(XI 0)]))].
Example g40_ideal : spec_group g40 = Some [].
Proof. vm_compute. reflexivity. Qed.
Example g40_conforms : (run_group false g40, run_group true g40) = ([], []).
Proof. vm_compute. reflexivity. Qed.
(* TestDecodeNull *)
Definition g41 : group :=
  G [] [] (TSlice (TInt (NK false W64))) default_opts
   [K (bs "[null]") None (WOk (XL [(XI 0)]))].
Example g41_ideal : spec_group g41 = Some [].
Proof. vm_compute. reflexivity. Qed.
Example g41_conforms : (run_group false g41, run_group true g41) = ([], []).
Proof. vm_compute. reflexivity. Qed.
(* TestDecodeNull *)
Definition g42 : group :=
  G [] [] (TSlice (TFloat B32)) default_opts
   [K (bs "[null]") None (WOk (XL [(XF 0 0)]))].
Example g42_ideal : spec_group g42 = Some [].
Proof. vm_compute. reflexivity. Qed.
Example g42_conforms : (run_group false g42, run_group true g42) = ([], []).
Proof. vm_compute. reflexivity. Qed.
(* TestDecodeNull *)
Definition g43 : group :=
  G [] [] (TSlice (TFloat B64)) default_opts
   [K (bs "[null]") None (WOk (XL [(XF 0 0)]))].
Example g43_ideal : spec_group g43 = Some [].
Proof. vm_compute. reflexivity. Qed.
Example g43_conforms : (run_group false g43, run_group true g43) = ([], []).
Proof. vm_compute. reflexivity. Qed.
(* TestDecodeString *)
Definition g44 : group :=
  G [] [] (TStr) default_opts
   [K (bs "null") None (WOk (XS []));
    K (bs """""") None (WOk (XS []));
    K (bs """   """) None (WOk (XS (bs "   ")));
    K (bs """Hello World!""") None (WOk (XS (bs "Hello World!")));
    K [34; 209; 142; 208; 189; 208; 184; 208; 186; 208; 190; 208; 180; 45; 208; 182; 208; 181; 208; 182; 34] None (WOk (XS [209; 142; 208; 189; 208; 184; 208; 186; 208; 190; 208; 180; 45; 208; 182; 208; 181; 208; 182]));
    K (bs """\""\\\""""") None (WOk (XS (bs """\""")));
    K (bs """\u0436\u0448\u0444\u30C4""") None (WOk (XS [208; 182; 209; 136; 209; 132; 227; 131; 132]))].
Example g44_ideal : spec_group g44 = Some [].
Proof. vm_compute. reflexivity. Qed.
Example g44_conforms : (run_group false g44, run_group true g44) = ([], []).
Proof. vm_compute. reflexivity. Qed.
(* TestDecode2DSliceBool *)
Definition g45 : group :=
  G [] [] (TSlice (TSlice (TBool))) default_opts
   [K (bs "null") None (WOk XNil);
    K (bs "[[true],[false, true],[ ]]") None (WOk (XL [(XL [(XB true)]); (XL [(XB false); (XB true)]); (XL [])]));
    K (bs "[[],[false]]") None (WOk (XL [(XL []); (XL [(XB false)])]));
    K (bs "[[],[]]") None (WOk (XL [(XL []); (XL [])]));
    K (bs "[]") None (WOk (XL []))].
Example g45_ideal : spec_group g45 = Some [].
Proof. vm_compute. reflexivity. Qed.
Example g45_conforms : (run_group false g45, run_group true g45) = ([], []).
Proof. vm_compute. reflexivity. Qed.
(* TestDecodeSliceInt *)
Definition g46 : group :=
  G [] [] (TSlice (TInt (NK true WWord))) default_opts
   [K (bs "[ 1, -23, 456 ]") None (WOk (XL [(XI 1); (XI (-23)); (XI 456)]));
    K (bs "[9223372036854775807]") None (WOk (XL [(XI 9223372036854775807)]));
    K (bs "[-9223372036854775808]") None (WOk (XL [(XI (-9223372036854775808))]));
    K (bs "[ 1 ]") None (WOk (XL [(XI 1)]));
    K (bs "[]") None (WOk (XL []));
    K (bs "null") None (WOk XNil);
    K (bs "[ null ]") None (WOk (XL [(XI 0)]));
    K (bs "[ null, 1, null ]") None (WOk (XL [(XI 0); (XI 1); (XI 0)]));
    K (bs "[1,2,3]") (Some (XL [(XI 10); (XI 20); (XI 30)])) (WOk (XL [(XI 1); (XI 2); (XI 3)]));
    K (bs "[1,2,3]") (Some XNil) (WOk (XL [(XI 1); (XI 2); (XI 3)]));
    K (bs "[1,2,3]") (Some (XL [(XI 10); (XI 20)])) (WOk (XL [(XI 1); (XI 2); (XI 3)]));
    K (bs "[1,2,3]") (Some (XL [(XI 10); (XI 20); (XI 30); (XI 40)])) (WOk (XL [(XI 1); (XI 2); (XI 3)]));
    K (bs "[9223372036854775808]") None (WErr (Some 1) EOverflow);
    K (bs "[-9223372036854775809]") None (WErr (Some 1) EOverflow);
    K (bs "{}") None (WErr (Some 0) EUnexpected);
    K (bs "[1,3.14]") None (WErr (Some 3) EUnexpected);
    K (bs "[1,""nope""]") None (WErr (Some 3) EUnexpected)].
Example g46_ideal : spec_group g46 = Some [].
Proof. vm_compute. reflexivity. Qed.
Example g46_conforms : (run_group false g46, run_group true g46) = ([], []).
Proof. vm_compute. reflexivity. Qed.
(* TestDecodeSliceInt8 *)
Definition g47 : group :=
  G [] [] (TSlice (TInt (NK true W8))) default_opts
   [K (bs "[ 1, -23, 123 ]") None (WOk (XL [(XI 1); (XI (-23)); (XI 123)]));
    K (bs "[127]") None (WOk (XL [(XI 127)]));
    K (bs "[-128]") None (WOk (XL [(XI (-128))]));
    K (bs "[ 1 ]") None (WOk (XL [(XI 1)]));
    K (bs "[]") None (WOk (XL []));
    K (bs "null") None (WOk XNil);
    K (bs "[ null ]") None (WOk (XL [(XI 0)]));
    K (bs "[ null, 1, null ]") None (WOk (XL [(XI 0); (XI 1); (XI 0)]));
    K (bs "[1,2,3]") (Some (XL [(XI 10); (XI 20); (XI 30)])) (WOk (XL [(XI 1); (XI 2); (XI 3)]));
    K (bs "[1,2,3]") (Some XNil) (WOk (XL [(XI 1); (XI 2); (XI 3)]));
    K (bs "[1,2,3]") (Some (XL [(XI 10); (XI 20)])) (WOk (XL [(XI 1); (XI 2); (XI 3)]));
    K (bs "[1,2,3]") (Some (XL [(XI 10); (XI 20); (XI 30); (XI 40)])) (WOk (XL [(XI 1); (XI 2); (XI 3)]));
    K (bs "[128]") None (WErr (Some 1) EOverflow);
    K (bs "[-129]") None (WErr (Some 1) EOverflow);
    K (bs "{}") None (WErr (Some 0) EUnexpected);
    K (bs "[1,3.14]") None (WErr (Some 3) EUnexpected);
    K (bs "[1,""nope""]") None (WErr (Some 3) EUnexpected)].
Example g47_ideal : spec_group g47 = Some [].
Proof. vm_compute. reflexivity. Qed.
Example g47_conforms : (run_group false g47, run_group true g47) = ([], []).
Proof. vm_compute. reflexivity. Qed.
(* TestDecodeSliceInt16 *)
Definition g48 : group :=
  G [] [] (TSlice (TInt (NK true W16))) default_opts
   [K (bs "[ 1, -23, 123 ]") None (WOk (XL [(XI 1); (XI (-23)); (XI 123)]));
    K (bs "[32767]") None (WOk (XL [(XI 32767)]));
    K (bs "[-32768]") None (WOk (XL [(XI (-32768))]));
    K (bs "[ 1 ]") None (WOk (XL [(XI 1)]));
    K (bs "[]") None (WOk (XL []));
    K (bs "null") None (WOk XNil);
    K (bs "[ null ]") None (WOk (XL [(XI 0)]));
    K (bs "[ null, 1, null ]") None (WOk (XL [(XI 0); (XI 1); (XI 0)]));
    K (bs "[1,2,3]") (Some (XL [(XI 10); (XI 20); (XI 30)])) (WOk (XL [(XI 1); (XI 2); (XI 3)]));
    K (bs "[1,2,3]") (Some XNil) (WOk (XL [(XI 1); (XI 2); (XI 3)]));
    K (bs "[1,2,3]") (Some (XL [(XI 10); (XI 20)])) (WOk (XL [(XI 1); (XI 2); (XI 3)]));
    K (bs "[1,2,3]") (Some (XL [(XI 10); (XI 20); (XI 30); (XI 40)])) (WOk (XL [(XI 1); (XI 2); (XI 3)]));
    K (bs "[32768]") None (WErr (Some 1) EOverflow);
    K (bs "[-32769]") None (WErr (Some 1) EOverflow);
    K (bs "{}") None (WErr (Some 0) EUnexpected);
    K (bs "[1,3.14]") None (WErr (Some 3) EUnexpected);
    K (bs "[1,""nope""]") None (WErr (Some 3) EUnexpected)].
Example g48_ideal : spec_group g48 = Some [].
Proof. vm_compute. reflexivity. Qed.
Example g48_conforms : (run_group false g48, run_group true g48) = ([], []).
Proof. vm_compute. reflexivity. Qed.
(* TestDecodeSliceInt32 *)
Definition g49 : group :=
  G [] [] (TSlice (TInt (NK true W32))) default_opts
   [K (bs "[ 1, -23, 123 ]") None (WOk (XL [(XI 1); (XI (-23)); (XI 123)]));
    K (bs "[2147483647]") None (WOk (XL [(XI 2147483647)]));
    K (bs "[-2147483648]") None (WOk (XL [(XI (-2147483648))]));
    K (bs "[ 1 ]") None (WOk (XL [(XI 1)]));
    K (bs "[]") None (WOk (XL []));
    K (bs "null") None (WOk XNil);
    K (bs "[ null ]") None (WOk (XL [(XI 0)]));
    K (bs "[ null, 1, null ]") None (WOk (XL [(XI 0); (XI 1); (XI 0)]));
    K (bs "[1,2,3]") (Some (XL [(XI 10); (XI 20); (XI 30)])) (WOk (XL [(XI 1); (XI 2); (XI 3)]));
    K (bs "[1,2,3]") (Some XNil) (WOk (XL [(XI 1); (XI 2); (XI 3)]));
    K (bs "[1,2,3]") (Some (XL [(XI 10); (XI 20)])) (WOk (XL [(XI 1); (XI 2); (XI 3)]));
    K (bs "[1,2,3]") (Some (XL [(XI 10); (XI 20); (XI 30); (XI 40)])) (WOk (XL [(XI 1); (XI 2); (XI 3)]));
    K (bs "[2147483648]") None (WErr (Some 1) EOverflow);
    K (bs "[-2147483649]") None (WErr (Some 1) EOverflow);
    K (bs "{}") None (WErr (Some 0) EUnexpected);
    K (bs "[1,3.14]") None (WErr (Some 3) EUnexpected);
    K (bs "[1,""nope""]") None (WErr (Some 3) EUnexpected)].
Example g49_ideal : spec_group g49 = Some [].
Proof. vm_compute. reflexivity. Qed.
Example g49_conforms : (run_group false g49, run_group true g49) = ([], []).
Proof. vm_compute. reflexivity. Qed.
(* TestDecodeSliceInt64 *)
Definition g50 : group :=
  G [] [] (TSlice (TInt (NK true W64))) default_opts
   [K (bs "[ 1, -23, 123 ]") None (WOk (XL [(XI 1); (XI (-23)); (XI 123)]));
    K (bs "[9223372036854775807]") None (WOk (XL [(XI 9223372036854775807)]));
    K (bs "[-9223372036854775808]") None (WOk (XL [(XI (-9223372036854775808))]));
    K (bs "[ 1 ]") None (WOk (XL [(XI 1)]));
    K (bs "[]") None (WOk (XL []));
    K (bs "null") None (WOk XNil);
    K (bs "[ null ]") None (WOk (XL [(XI 0)]));
    K (bs "[ null, 1, null ]") None (WOk (XL [(XI 0); (XI 1); (XI 0)]));
    K (bs "[1,2,3]") (Some (XL [(XI 10); (XI 20); (XI 30)])) (WOk (XL [(XI 1); (XI 2); (XI 3)]));
    K (bs "[1,2,3]") (Some XNil) (WOk (XL [(XI 1); (XI 2); (XI 3)]));
    K (bs "[1,2,3]") (Some (XL [(XI 10); (XI 20)])) (WOk (XL [(XI 1); (XI 2); (XI 3)]));
    K (bs "[1,2,3]") (Some (XL [(XI 10); (XI 20); (XI 30); (XI 40)])) (WOk (XL [(XI 1); (XI 2); (XI 3)]));
    K (bs "[9223372036854775808]") None (WErr (Some 1) EOverflow);
    K (bs "[-9223372036854775809]") None (WErr (Some 1) EOverflow);
    K (bs "{}") None (WErr (Some 0) EUnexpected);
    K (bs "[1,3.14]") None (WErr (Some 3) EUnexpected);
    K (bs "[1,""nope""]") None (WErr (Some 3) EUnexpected)].
Example g50_ideal : spec_group g50 = Some [].
Proof. vm_compute. reflexivity. Qed.
Example g50_conforms : (run_group false g50, run_group true g50) = ([], []).
Proof. vm_compute. reflexivity. Qed.
(* TestDecodeSliceUint *)
Definition g51 : group :=
  G [] [] (TSlice (TInt (NK false WWord))) default_opts
   [K (bs "[ 1, 23, 456 ]") None (WOk (XL [(XI 1); (XI 23); (XI 456)]));
    K (bs "[18446744073709551615]") None (WOk (XL [(XI 18446744073709551615)]));
    K (bs "[ 1 ]") None (WOk (XL [(XI 1)]));
    K (bs "[]") None (WOk (XL []));
    K (bs "null") None (WOk XNil);
    K (bs "[ null ]") None (WOk (XL [(XI 0)]));
    K (bs "[ null, 1, null ]") None (WOk (XL [(XI 0); (XI 1); (XI 0)]));
    K (bs "[1,2,3]") (Some (XL [(XI 10); (XI 20); (XI 30)])) (WOk (XL [(XI 1); (XI 2); (XI 3)]));
    K (bs "[1,2,3]") (Some XNil) (WOk (XL [(XI 1); (XI 2); (XI 3)]));
    K (bs "[1,2,3]") (Some (XL [(XI 10); (XI 20)])) (WOk (XL [(XI 1); (XI 2); (XI 3)]));
    K (bs "[1,2,3]") (Some (XL [(XI 10); (XI 20); (XI 30); (XI 40)])) (WOk (XL [(XI 1); (XI 2); (XI 3)]));
    K (bs "[-1]") None (WErr (Some 1) EUnexpected);
    K (bs "[18446744073709551616]") None (WErr (Some 1) EOverflow);
    K (bs "{}") None (WErr (Some 0) EUnexpected);
    K (bs "[1,3.14]") None (WErr (Some 3) EUnexpected);
    K (bs "[1,""nope""]") None (WErr (Some 3) EUnexpected)].
Example g51_ideal : spec_group g51 = Some [].
Proof. vm_compute. reflexivity. Qed.
Example g51_conforms : (run_group false g51, run_group true g51) = ([], []).
Proof. vm_compute. reflexivity. Qed.
(* TestDecodeSliceUint8 *)
Definition g52 : group :=
  G [] [] (TSlice (TInt (NK false W8))) default_opts
   [K (bs "[ 1, 23, 123 ]") None (WOk (XL [(XI 1); (XI 23); (XI 123)]));
    K (bs "[255]") None (WOk (XL [(XI 255)]));
    K (bs "[ 1 ]") None (WOk (XL [(XI 1)]));
    K (bs "[]") None (WOk (XL []));
    K (bs "null") None (WOk XNil);
    K (bs "[ null ]") None (WOk (XL [(XI 0)]));
    K (bs "[ null, 1, null ]") None (WOk (XL [(XI 0); (XI 1); (XI 0)]));
    K (bs "[1,2,3]") (Some (XL [(XI 10); (XI 20); (XI 30)])) (WOk (XL [(XI 1); (XI 2); (XI 3)]));
    K (bs "[1,2,3]") (Some XNil) (WOk (XL [(XI 1); (XI 2); (XI 3)]));
    K (bs "[1,2,3]") (Some (XL [(XI 10); (XI 20)])) (WOk (XL [(XI 1); (XI 2); (XI 3)]));
    K (bs "[1,2,3]") (Some (XL [(XI 10); (XI 20); (XI 30); (XI 40)])) (WOk (XL [(XI 1); (XI 2); (XI 3)]));
    K (bs "[-1]") None (WErr (Some 1) EUnexpected);
    K (bs "[256]") None (WErr (Some 1) EOverflow);
    K (bs "{}") None (WErr (Some 0) EUnexpected);
    K (bs "[1,3.14]") None (WErr (Some 3) EUnexpected);
    K (bs "[1,""nope""]") None (WErr (Some 3) EUnexpected)].
Example g52_ideal : spec_group g52 = Some [].
Proof. vm_compute. reflexivity. Qed.
Example g52_conforms : (run_group false g52, run_group true g52) = ([], []).
Proof. vm_compute. reflexivity. Qed.
(* TestDecodeSliceUint16 *)
Definition g53 : group :=
  G [] [] (TSlice (TInt (NK false W16))) default_opts
   [K (bs "[ 1, 23, 123 ]") None (WOk (XL [(XI 1); (XI 23); (XI 123)]));
    K (bs "[65535]") None (WOk (XL [(XI 65535)]));
    K (bs "[ 1 ]") None (WOk (XL [(XI 1)]));
    K (bs "[]") None (WOk (XL []));
    K (bs "null") None (WOk XNil);
    K (bs "[ null ]") None (WOk (XL [(XI 0)]));
    K (bs "[ null, 1, null ]") None (WOk (XL [(XI 0); (XI 1); (XI 0)]));
    K (bs "[1,2,3]") (Some (XL [(XI 10); (XI 20); (XI 30)])) (WOk (XL [(XI 1); (XI 2); (XI 3)]));
    K (bs "[1,2,3]") (Some XNil) (WOk (XL [(XI 1); (XI 2); (XI 3)]));
    K (bs "[1,2,3]") (Some (XL [(XI 10); (XI 20)])) (WOk (XL [(XI 1); (XI 2); (XI 3)]));
    K (bs "[1,2,3]") (Some (XL [(XI 10); (XI 20); (XI 30); (XI 40)])) (WOk (XL [(XI 1); (XI 2); (XI 3)]));
    K (bs "[-1]") None (WErr (Some 1) EUnexpected);
    K (bs "[65536]") None (WErr (Some 1) EOverflow);
    K (bs "{}") None (WErr (Some 0) EUnexpected);
    K (bs "[1,3.14]") None (WErr (Some 3) EUnexpected);
    K (bs "[1,""nope""]") None (WErr (Some 3) EUnexpected)].
Example g53_ideal : spec_group g53 = Some [].
Proof. vm_compute. reflexivity. Qed.
Example g53_conforms : (run_group false g53, run_group true g53) = ([], []).
Proof. vm_compute. reflexivity. Qed.
(* TestDecodeSliceUint32 *)
Definition g54 : group :=
  G [] [] (TSlice (TInt (NK false W32))) default_opts
   [K (bs "[ 1, 23, 123 ]") None (WOk (XL [(XI 1); (XI 23); (XI 123)]));
    K (bs "[4294967295]") None (WOk (XL [(XI 4294967295)]));
    K (bs "[ 1 ]") None (WOk (XL [(XI 1)]));
    K (bs "[]") None (WOk (XL []));
    K (bs "null") None (WOk XNil);
    K (bs "[ null ]") None (WOk (XL [(XI 0)]));
    K (bs "[ null, 1, null ]") None (WOk (XL [(XI 0); (XI 1); (XI 0)]));
    K (bs "[1,2,3]") (Some (XL [(XI 10); (XI 20); (XI 30)])) (WOk (XL [(XI 1); (XI 2); (XI 3)]));
    K (bs "[1,2,3]") (Some XNil) (WOk (XL [(XI 1); (XI 2); (XI 3)]));
    K (bs "[1,2,3]") (Some (XL [(XI 10); (XI 20)])) (WOk (XL [(XI 1); (XI 2); (XI 3)]));
    K (bs "[1,2,3]") (Some (XL [(XI 10); (XI 20); (XI 30); (XI 40)])) (WOk (XL [(XI 1); (XI 2); (XI 3)]));
    K (bs "[-1]") None (WErr (Some 1) EUnexpected);
    K (bs "[4294967296]") None (WErr (Some 1) EOverflow);
    K (bs "{}") None (WErr (Some 0) EUnexpected);
    K (bs "[1,3.14]") None (WErr (Some 3) EUnexpected);
    K (bs "[1,""nope""]") None (WErr (Some 3) EUnexpected)].
Example g54_ideal : spec_group g54 = Some [].
Proof. vm_compute. reflexivity. Qed.
Example g54_conforms : (run_group false g54, run_group true g54) = ([], []).
Proof. vm_compute. reflexivity. Qed.
(* TestDecodeSliceUint64 *)
Definition g55 : group :=
  G [] [] (TSlice (TInt (NK false W64))) default_opts
   [K (bs "[ 1, 23, 123 ]") None (WOk (XL [(XI 1); (XI 23); (XI 123)]));
    K (bs "[18446744073709551615]") None (WOk (XL [(XI 18446744073709551615)]));
    K (bs "[ 1 ]") None (WOk (XL [(XI 1)]));
    K (bs "[]") None (WOk (XL []));
    K (bs "null") None (WOk XNil);
    K (bs "[ null ]") None (WOk (XL [(XI 0)]));
    K (bs "[ null, 1, null ]") None (WOk (XL [(XI 0); (XI 1); (XI 0)]));
    K (bs "[1,2,3]") (Some (XL [(XI 10); (XI 20); (XI 30)])) (WOk (XL [(XI 1); (XI 2); (XI 3)]));
    K (bs "[1,2,3]") (Some XNil) (WOk (XL [(XI 1); (XI 2); (XI 3)]));
    K (bs "[1,2,3]") (Some (XL [(XI 10); (XI 20)])) (WOk (XL [(XI 1); (XI 2); (XI 3)]));
    K (bs "[1,2,3]") (Some (XL [(XI 10); (XI 20); (XI 30); (XI 40)])) (WOk (XL [(XI 1); (XI 2); (XI 3)]));
    K (bs "[-1]") None (WErr (Some 1) EUnexpected);
    K (bs "[18446744073709551616]") None (WErr (Some 1) EOverflow);
    K (bs "{}") None (WErr (Some 0) EUnexpected);
    K (bs "[1,3.14]") None (WErr (Some 3) EUnexpected);
    K (bs "[1,""nope""]") None (WErr (Some 3) EUnexpected)].
Example g55_ideal : spec_group g55 = Some [].
Proof. vm_compute. reflexivity. Qed.
Example g55_conforms : (run_group false g55, run_group true g55) = ([], []).
Proof. vm_compute. reflexivity. Qed.
(* TestDecodeSliceString *)
Definition g56 : group :=
  G [] [] (TSlice (TStr)) default_opts
   [K (bs "[ ""a"", """", ""cde"" ]") None (WOk (XL [(XS (bs "a")); (XS []); (XS (bs "cde"))]));
    K (bs "[ ""abc"" ]") None (WOk (XL [(XS (bs "abc"))]));
    K (bs "[ ""\""abc\tdef\"""" ]") None (WOk (XL [(XS (bs """abc	def"""))]));
    K [91; 34; 208; 182; 208; 183; 209; 136; 34; 44; 34; 227; 131; 132; 33; 34; 93] None (WOk (XL [(XS [208; 182; 208; 183; 209; 136]); (XS [227; 131; 132; 33])]));
    K (bs "[]") None (WOk (XL []));
    K (bs "null") None (WOk XNil);
    K (bs "[null]") None (WOk (XL [(XS [])]));
    K (bs "[null,""okay"",null]") None (WOk (XL [(XS []); (XS (bs "okay")); (XS [])]));
    K (bs "[""x"",""y"",""z""]") (Some (XL [(XS (bs "a")); (XS (bs "b")); (XS (bs "c"))])) (WOk (XL [(XS (bs "x")); (XS (bs "y")); (XS (bs "z"))]));
    K (bs "[""x"",""y"",""z""]") (Some XNil) (WOk (XL [(XS (bs "x")); (XS (bs "y")); (XS (bs "z"))]));
    K (bs "[""x"",""y"",""z""]") (Some (XL [(XS (bs "a")); (XS (bs "b"))])) (WOk (XL [(XS (bs "x")); (XS (bs "y")); (XS (bs "z"))]));
    K (bs "[""x"",""y"",""z""]") (Some (XL [(XS (bs "a")); (XS (bs "b")); (XS (bs "c")); (XS (bs "d"))])) (WOk (XL [(XS (bs "x")); (XS (bs "y")); (XS (bs "z"))]));
    K (bs """text""") None (WErr (Some 0) EUnexpected);
    K (bs "true") None (WErr (Some 0) EUnexpected);
    K (bs "false") None (WErr (Some 0) EUnexpected);
    K (bs "{}") None (WErr (Some 0) EUnexpected);
    K (bs "[""okay"",[]]") None (WErr (Some 8) EUnexpected);
    K (bs "[""okay"",3.14]") None (WErr (Some 8) EUnexpected)].
Example g56_ideal : spec_group g56 = Some [].
Proof. vm_compute. reflexivity. Qed.
Example g56_conforms : (run_group false g56, run_group true g56) = ([], []).
Proof. vm_compute. reflexivity. Qed.
(* TestDecodeSliceBool *)
Definition g57 : group :=
  G [] [] (TSlice (TBool)) default_opts
   [K (bs "[ true, false, true ]") None (WOk (XL [(XB true); (XB false); (XB true)]));
    K (bs "[ true ]") None (WOk (XL [(XB true)]));
    K (bs "[]") None (WOk (XL []));
    K (bs "null") None (WOk XNil);
    K (bs "[null]") None (WOk (XL [(XB false)]));
    K (bs "[null,true,null]") None (WOk (XL [(XB false); (XB true); (XB false)]));
    K (bs "[true,false,true]") (Some (XL [(XB false); (XB true); (XB false)])) (WOk (XL [(XB true); (XB false); (XB true)]));
    K (bs "[true, false, true]") (Some XNil) (WOk (XL [(XB true); (XB false); (XB true)]));
    K (bs "[true, false, true]") (Some (XL [(XB false); (XB false)])) (WOk (XL [(XB true); (XB false); (XB true)]));
    K (bs "[true, false, true]") (Some (XL [(XB false); (XB true); (XB true); (XB true)])) (WOk (XL [(XB true); (XB false); (XB true)]));
    K (bs """text""") None (WErr (Some 0) EUnexpected);
    K (bs "true") None (WErr (Some 0) EUnexpected);
    K (bs "false") None (WErr (Some 0) EUnexpected);
    K (bs "{}") None (WErr (Some 0) EUnexpected);
    K (bs "[true,[]]") None (WErr (Some 6) EUnexpected);
    K (bs "[true,3.14]") None (WErr (Some 6) EUnexpected)].
Example g57_ideal : spec_group g57 = Some [].
Proof. vm_compute. reflexivity. Qed.
Example g57_conforms : (run_group false g57, run_group true g57) = ([], []).
Proof. vm_compute. reflexivity. Qed.
(* TestDecodeSliceFloat32 *)
Definition g58 : group :=
  G [] [] (TSlice (TFloat B32)) default_opts
   [K (bs "[0, 3.14, 2.5]") None (WOk (XL [(XF 0 0); (XF 314 (-2)); (XF 25 (-1))]));
    K (bs "null") None (WOk XNil);
    K (bs "[]") None (WOk (XL []));
    K (bs "[0]") None (WOk (XL [(XF 0 0)]));
    K (bs "[1]") None (WOk (XL [(XF 1 0)]));
    K (bs "[-1]") None (WOk (XL [(XF (-1) 0)]));
    K (bs "[-16777215]") None (WOk (XL [(XF (-16777215) 0)]));
    K (bs "[16777215]") None (WOk (XL [(XF 16777215 0)]));
    K (bs "[3.1415927]") None (WOk (XL [(XF 31415927 (-7))]));
    K (bs "[-3.1415927]") None (WOk (XL [(XF (-31415927) (-7))]));
    K (bs "[3.4028235e38]") None (WOk (XL [(XF 34028235 31)]));
    K (bs "[1.4e-45]") None (WOk (XL [(XF 14 (-46))]));
    K (bs "[3.4e38]") None (WOk (XL [(XF 34 37)]));
    K (bs "[-3.4e38]") None (WOk (XL [(XF (-34) 37)]));
    K (bs "[6.022e23]") None (WOk (XL [(XF 6022 20)]));
    K (bs "[1.1, 2.2, 3.3]") (Some (XL [(XF 101 (-1)); (XF 202 (-1)); (XF 303 (-1))])) (WOk (XL [(XF 11 (-1)); (XF 22 (-1)); (XF 33 (-1))]));
    K (bs "[1.1, 2.2, 3.3]") (Some XNil) (WOk (XL [(XF 11 (-1)); (XF 22 (-1)); (XF 33 (-1))]));
    K (bs "[1.1, 2.2, 3.3]") (Some (XL [(XF 101 (-1)); (XF 202 (-1))])) (WOk (XL [(XF 11 (-1)); (XF 22 (-1)); (XF 33 (-1))]));
    K (bs "[1.1, 2.2, 3.3]") (Some (XL [(XF 101 (-1)); (XF 202 (-1)); (XF 303 (-1)); (XF 404 (-1))])) (WOk (XL [(XF 11 (-1)); (XF 22 (-1)); (XF 33 (-1))]));
    K (bs "[3.5e38]") None (WErr (Some 1) EParse);
    K (bs """text""") None (WErr (Some 0) EUnexpected);
    K (bs "true") None (WErr (Some 0) EUnexpected);
    K (bs "false") None (WErr (Some 0) EUnexpected);
    K (bs "{}") None (WErr (Some 0) EUnexpected);
    K (bs "[1,[]]") None (WErr (Some 3) EUnexpected);
    K (bs "[1,""nope""]") None (WErr (Some 3) EUnexpected)].
Example g58_ideal : spec_group g58 = Some [].
Proof. vm_compute. reflexivity. Qed.
Example g58_conforms : (run_group false g58, run_group true g58) = ([], []).
Proof. vm_compute. reflexivity. Qed.
(* TestDecodeSliceFloat64 *)
Definition g59 : group :=
  G [] [] (TSlice (TFloat B64)) default_opts
   [K (bs "[0, 3.14, 2.5]") None (WOk (XL [(XF 0 0); (XF 314 (-2)); (XF 25 (-1))]));
    K (bs "null") None (WOk XNil);
    K (bs "[]") None (WOk (XL []));
    K (bs "[0]") None (WOk (XL [(XF 0 0)]));
    K (bs "[1]") None (WOk (XL [(XF 1 0)]));
    K (bs "[-1]") None (WOk (XL [(XF (-1) 0)]));
    K (bs "[1.0]") None (WOk (XL [(XF 1 0)]));
    K (bs "[1.000000003]") None (WOk (XL [(XF 1000000003 (-9))]));
    K (bs "[9007199254740991]") None (WOk (XL [(XF 9007199254740991 0)]));
    K (bs "[-9007199254740991]") None (WOk (XL [(XF (-9007199254740991) 0)]));
    K (bs "[3.141592653589793238462643383279502884197]") None (WOk (XL [(XF 3141592653589793238462643383279502884197 (-39))]));
    K (bs "[-3.141592653589793238462643383279502884197]") None (WOk (XL [(XF (-3141592653589793238462643383279502884197) (-39))]));
    K (bs "[3.4028235e38]") None (WOk (XL [(XF 34028235 31)]));
    K (bs "[1.7976931348623157e308]") None (WOk (XL [(XF 17976931348623157 292)]));
    K (bs "[1.7976931348623157e-308]") None (WOk (XL [(XF 17976931348623157 (-324))]));
    K (bs "[1.4e-45]") None (WOk (XL [(XF 14 (-46))]));
    K (bs "[-1.7976931348623157e308]") None (WOk (XL [(XF (-17976931348623157) 292)]));
    K (bs "[3.4e38]") None (WOk (XL [(XF 34 37)]));
    K (bs "[-3.4e38]") None (WOk (XL [(XF (-34) 37)]));
    K (bs "[6.022e23]") None (WOk (XL [(XF 6022 20)]));
    K (bs "[1.1, 2.2, 3.3]") (Some (XL [(XF 101 (-1)); (XF 202 (-1)); (XF 303 (-1))])) (WOk (XL [(XF 11 (-1)); (XF 22 (-1)); (XF 33 (-1))]));
    K (bs "[1.1, 2.2, 3.3]") (Some XNil) (WOk (XL [(XF 11 (-1)); (XF 22 (-1)); (XF 33 (-1))]));
    K (bs "[1.1, 2.2, 3.3]") (Some (XL [(XF 101 (-1)); (XF 202 (-1))])) (WOk (XL [(XF 11 (-1)); (XF 22 (-1)); (XF 33 (-1))]));
    K (bs "[1.1, 2.2, 3.3]") (Some (XL [(XF 101 (-1)); (XF 202 (-1)); (XF 303 (-1)); (XF 404 (-1))])) (WOk (XL [(XF 11 (-1)); (XF 22 (-1)); (XF 33 (-1))]));
    K (bs "[1e309]") None (WErr (Some 1) EParse);
    K (bs """text""") None (WErr (Some 0) EUnexpected);
    K (bs "true") None (WErr (Some 0) EUnexpected);
    K (bs "false") None (WErr (Some 0) EUnexpected);
    K (bs "{}") None (WErr (Some 0) EUnexpected);
    K (bs "[1,[]]") None (WErr (Some 3) EUnexpected);
    K (bs "[1,""nope""]") None (WErr (Some 3) EUnexpected)].
Example g59_ideal : spec_group g59 = Some [].
Proof. vm_compute. reflexivity. Qed.
Example g59_conforms : (run_group false g59, run_group true g59) = ([], []).
Proof. vm_compute. reflexivity. Qed.
(* TestDecode2DSliceInt *)
Definition g60 : group :=
  G [] [] (TSlice (TSlice (TInt (NK true WWord)))) default_opts
   [K (bs "[[0],[12, 123],[ ]]") None (WOk (XL [(XL [(XI 0)]); (XL [(XI 12); (XI 123)]); (XL [])]));
    K (bs "[[],[-12345678]]") None (WOk (XL [(XL []); (XL [(XI (-12345678))])]));
    K (bs "[[],[]]") None (WOk (XL [(XL []); (XL [])]));
    K (bs "[]") None (WOk (XL []));
    K (bs "[ [1], [], [3] ]") (Some (XL [(XL [(XI 10)]); (XL [(XI 20)]); (XL [(XI 30)])])) (WOk (XL [(XL [(XI 1)]); (XL []); (XL [(XI 3)])]));
    K (bs "[ [1], [], [3] ]") (Some XNil) (WOk (XL [(XL [(XI 1)]); (XL []); (XL [(XI 3)])]));
    K (bs "[ [1], [], [3] ]") (Some (XL [(XL [(XI 10)]); (XL [(XI 20)])])) (WOk (XL [(XL [(XI 1)]); (XL []); (XL [(XI 3)])]));
    K (bs "[ [1], [], [3] ]") (Some (XL [(XL [(XI 10)]); (XL [(XI 20)]); (XL [(XI 30)]); (XL [(XI 40)])])) (WOk (XL [(XL [(XI 1)]); (XL []); (XL [(XI 3)])]))].
Example g60_ideal : spec_group g60 = Some [].
Proof. vm_compute. reflexivity. Qed.
Example g60_conforms : (run_group false g60, run_group true g60) = ([], []).
Proof. vm_compute. reflexivity. Qed.
(* TestDecodeMatrix2Int *)
Definition g61 : group :=
  G [] [] (TArr 2 (TArr 2 (TInt (NK true WWord)))) default_opts
   [K (bs "null") None (WOk (XL [(XL [(XI 0); (XI 0)]); (XL [(XI 0); (XI 0)])]));
    K (bs "[]") None (WOk (XL [(XL [(XI 0); (XI 0)]); (XL [(XI 0); (XI 0)])]));
    K (bs "[[0,1],[2,3]]") None (WOk (XL [(XL [(XI 0); (XI 1)]); (XL [(XI 2); (XI 3)])]));
    K (bs "[[],[]]") None (WOk (XL [(XL [(XI 0); (XI 0)]); (XL [(XI 0); (XI 0)])]));
    K (bs "[[1],[2]]") None (WOk (XL [(XL [(XI 1); (XI 0)]); (XL [(XI 2); (XI 0)])]));
    K (bs "[[1,2],[3]]") None (WOk (XL [(XL [(XI 1); (XI 2)]); (XL [(XI 3); (XI 0)])]));
    K (bs "[[1,2,  3,4],[5,6,  7,8,9,10]]") None (WOk (XL [(XL [(XI 1); (XI 2)]); (XL [(XI 5); (XI 6)])]));
    K (bs "[[1,2],[3,4],  [5,6]]") None (WOk (XL [(XL [(XI 1); (XI 2)]); (XL [(XI 3); (XI 4)])]))].
Example g61_ideal : spec_group g61 = Some [].
Proof. vm_compute. reflexivity. Qed.
Example g61_conforms : (run_group false g61, run_group true g61) = ([], []).
Proof. vm_compute. reflexivity. Qed.
(* TestDecodeMatrix4Int *)
Definition g62 : group :=
  G [] [] (TArr 4 (TArr 4 (TInt (NK true WWord)))) default_opts
   [K (bs "null") None (WOk (XL [(XL [(XI 0); (XI 0); (XI 0); (XI 0)]); (XL [(XI 0); (XI 0); (XI 0); (XI 0)]); (XL [(XI 0); (XI 0); (XI 0); (XI 0)]); (XL [(XI 0); (XI 0); (XI 0); (XI 0)])]));
    K (bs "[]") None (WOk (XL [(XL [(XI 0); (XI 0); (XI 0); (XI 0)]); (XL [(XI 0); (XI 0); (XI 0); (XI 0)]); (XL [(XI 0); (XI 0); (XI 0); (XI 0)]); (XL [(XI 0); (XI 0); (XI 0); (XI 0)])]));
    K (bs "[[0,1,2,3],[4,5,6,7],[8,9,10,11],[12,13,14,15]]") None (WOk (XL [(XL [(XI 0); (XI 1); (XI 2); (XI 3)]); (XL [(XI 4); (XI 5); (XI 6); (XI 7)]); (XL [(XI 8); (XI 9); (XI 10); (XI 11)]); (XL [(XI 12); (XI 13); (XI 14); (XI 15)])]));
    K (bs "[[1],[2,3],[4,5,6],[]]") None (WOk (XL [(XL [(XI 1); (XI 0); (XI 0); (XI 0)]); (XL [(XI 2); (XI 3); (XI 0); (XI 0)]); (XL [(XI 4); (XI 5); (XI 6); (XI 0)]); (XL [(XI 0); (XI 0); (XI 0); (XI 0)])]));
    K (bs "[[],[]]") None (WOk (XL [(XL [(XI 0); (XI 0); (XI 0); (XI 0)]); (XL [(XI 0); (XI 0); (XI 0); (XI 0)]); (XL [(XI 0); (XI 0); (XI 0); (XI 0)]); (XL [(XI 0); (XI 0); (XI 0); (XI 0)])]));
    K (bs "[[1,2,3,4,  5],[6,7,8,9,  10,11,12,13,14]]") None (WOk (XL [(XL [(XI 1); (XI 2); (XI 3); (XI 4)]); (XL [(XI 6); (XI 7); (XI 8); (XI 9)])]));
    K (bs "[[1,2,3,4],[5,6,7,8],[9,10,11,12],[13,14,15,16],  [17]]") None (WOk (XL [(XL [(XI 1); (XI 2); (XI 3); (XI 4)]); (XL [(XI 5); (XI 6); (XI 7); (XI 8)]); (XL [(XI 9); (XI 10); (XI 11); (XI 12)]); (XL [(XI 13); (XI 14); (XI 15); (XI 16)])]))].
Example g62_ideal : spec_group g62 = Some [].
Proof. vm_compute. reflexivity. Qed.
Example g62_conforms : (run_group false g62, run_group true g62) = ([], []).
Proof. vm_compute. reflexivity. Qed.
(* TestDecodeEmptyStruct *)
Definition g63 : group :=
  G [Decl (TStruct 0 0 []) 0 SNone SNone] [] (TNamed 0) default_opts
   [K (bs "null") None (WOk (XL []));
    K (bs "{}") None (WOk (XL []));
    K (bs "{""x"":""y""}") None (WOk (XL []));
    K (bs "{""x"":""y"",""abc"":[{""x"":""y"",""2"":42}, null, {}]}") None (WOk (XL []));
    K (bs "true") None (WErr (Some 0) EUnexpected);
    K (bs "false") None (WErr (Some 0) EUnexpected);
    K (bs "1") None (WErr (Some 0) EUnexpected);
    K (bs """text""") None (WErr (Some 0) EUnexpected);
    K (bs "[]") None (WErr (Some 0) EUnexpected);
    K (bs "[{},{}]") None (WErr (Some 0) EUnexpected)].
Example g63_ideal : spec_group g63 = Some [].
Proof. vm_compute. reflexivity. Qed.
Example g63_conforms : (run_group false g63, run_group true g63) = ([], []).
Proof. vm_compute. reflexivity. Qed.
(* TestDecodeSliceEmptyStruct *)
Definition g64 : group :=
  G [Decl (TStruct 0 0 []) 0 SNone SNone] [] (TSlice (TNamed 0)) default_opts
   [K (bs "null") None (WOk XNil);
    K (bs "[]") None (WOk (XL []));
    K (bs "[{}]") None (WOk (XL [(XL [])]));
    K (bs "[{},{},{}]") None (WOk (XL [(XL []); (XL []); (XL [])]));
    K (bs "[{}, null, {}]") (Some (XL [(XL []); (XL []); (XL [])])) (WOk (XL [(XL []); (XL []); (XL [])]));
    K (bs "[{}, null, {}]") (Some XNil) (WOk (XL [(XL []); (XL []); (XL [])]));
    K (bs "[{}, null, {}]") (Some (XL [(XL []); (XL [])])) (WOk (XL [(XL []); (XL []); (XL [])]));
    K (bs "[{}, null, {}]") (Some (XL [(XL []); (XL []); (XL []); (XL [])])) (WOk (XL [(XL []); (XL []); (XL [])]));
    K (bs "true") None (WErr (Some 0) EUnexpected);
    K (bs "false") None (WErr (Some 0) EUnexpected);
    K (bs "1") None (WErr (Some 0) EUnexpected);
    K (bs """text""") None (WErr (Some 0) EUnexpected);
    K (bs "{}") None (WErr (Some 0) EUnexpected);
    K (bs "{""x"":0}") None (WErr (Some 0) EUnexpected)].
Example g64_ideal : spec_group g64 = Some [].
Proof. vm_compute. reflexivity. Qed.
Example g64_conforms : (run_group false g64, run_group true g64) = ([], []).
Proof. vm_compute. reflexivity. Qed.
(* TestDecodeSliceStruct *)
Definition g65 : group :=
  G [Decl (TStruct 0 16 [(Fld (bs "A") [] 0, TInt (NK true WWord)); (Fld (bs "B") [] 8, TInt (NK true WWord))]) 16 SNone SNone] [] (TSlice (TNamed 0)) default_opts
   [K (bs "null") None (WOk XNil);
    K (bs "[]") None (WOk (XL []));
    K (bs "[{}]") None (WOk (XL [(XL [XZ; XZ])]));
    K (bs "[null]") None (WOk (XL [(XL [XZ; XZ])]));
    K (bs "[{""A"":1,""B"":2}]") None (WOk (XL [(XL [(XI 1); (XI 2)])]));
    K (bs "[{""B"":2}]") None (WOk (XL [(XL [XZ; (XI 2)])]));
    K (bs "[{""A"":1,""X"":99,""B"":2}]") None (WOk (XL [(XL [(XI 1); (XI 2)])]));
    K (bs "[{},null,{}]") None (WOk (XL [(XL [XZ; XZ]); (XL [XZ; XZ]); (XL [XZ; XZ])]));
    K (bs "[{""B"":2},null,{""A"":3}]") None (WOk (XL [(XL [XZ; (XI 2)]); (XL [XZ; XZ]); (XL [(XI 3); XZ])]));
    K (bs "[{""A"":1}, {""B"":2}, {""C"":3,""B"":3}]") (Some (XL [(XL [(XI 9); (XI 9)]); (XL [(XI 9); (XI 9)]); (XL [(XI 9); (XI 9)])])) (WOk (XL [(XL [(XI 1); (XI 9)]); (XL [(XI 9); (XI 2)]); (XL [(XI 9); (XI 3)])]));
    K (bs "[{}, null, {""B"":1}]") (Some XNil) (WOk (XL [(XL [XZ; XZ]); (XL [XZ; XZ]); (XL [XZ; (XI 1)])]));
    K (bs "[ {""B"":1}, null, {""A"":1, ""B"":2} ]") (Some (XL [(XL [(XI 9); (XI 9)]); (XL [(XI 9); (XI 9)])])) (WOk (XL [(XL [(XI 9); (XI 1)]); (XL [(XI 9); (XI 9)]); (XL [(XI 1); (XI 2)])]));
    K (bs "[{}, null, {""A"":42}, {""A"":1,""B"":2}]") (Some (XL [(XL [(XI 9); (XI 9)]); (XL [(XI 9); (XI 9)]); (XL [(XI 9); (XI 9)]); (XL [(XI 9); (XI 9)]); (XL [(XI 9); (XI 9)])])) (WOk (XL [(XL [(XI 9); (XI 9)]); (XL [(XI 9); (XI 9)]); (XL [(XI 42); (XI 9)]); (XL [(XI 1); (XI 2)])]));
    K (bs "true") None (WErr (Some 0) EUnexpected);
    K (bs "false") None (WErr (Some 0) EUnexpected);
    K (bs "1") None (WErr (Some 0) EUnexpected);
    K (bs """text""") None (WErr (Some 0) EUnexpected);
    K (bs "{}") None (WErr (Some 0) EUnexpected);
    K (bs "{""x"":0}") None (WErr (Some 0) EUnexpected);
    K (bs "[123]") None (WErr (Some 1) EUnexpected);
    K (bs "[""x""]") None (WErr (Some 1) EUnexpected);
    K (bs "[{""A"": 2.2}]") None (WErr (Some 7) EUnexpected);
    K (bs "[{""B"": 1e10}]") None (WErr (Some 7) EUnexpected);
    K (bs "[{""B"": ""123""}]") None (WErr (Some 7) EUnexpected);
    K (bs "[{""B"": true}]") None (WErr (Some 7) EUnexpected)].
Example g65_ideal : spec_group g65 = Some [].
Proof. vm_compute. reflexivity. Qed.
Example g65_conforms : (run_group false g65, run_group true g65) = ([], []).
Proof. vm_compute. reflexivity. Qed.
(* TestDecodeArray *)
Definition g66 : group :=
  G [] [] (TArr 3 (TInt (NK true WWord))) default_opts
   [K (bs "null") None (WOk (XL []));
    K (bs "[]") None (WOk (XL []));
    K (bs "[1]") None (WOk (XL [(XI 1); (XI 0); (XI 0)]));
    K (bs "[1,2,3]") None (WOk (XL [(XI 1); (XI 2); (XI 3)]));
    K (bs "[1,2,3,false,true,{},{""x"":""y""},[],null,42,3.14]") None (WOk (XL [(XI 1); (XI 2); (XI 3)]));
    K (bs "true") None (WErr (Some 0) EUnexpected);
    K (bs "false") None (WErr (Some 0) EUnexpected);
    K (bs "1") None (WErr (Some 0) EUnexpected);
    K (bs "3.14") None (WErr (Some 0) EUnexpected);
    K (bs """text""") None (WErr (Some 0) EUnexpected);
    K (bs "{}") None (WErr (Some 0) EUnexpected);
    K (bs "{""x"":0}") None (WErr (Some 0) EUnexpected)].
Example g66_ideal : spec_group g66 = Some [].
Proof. vm_compute. reflexivity. Qed.
Example g66_conforms : (run_group false g66, run_group true g66) = ([], []).
Proof. vm_compute. reflexivity. Qed.
(* TestDecodeArray2D *)
Definition g67 : group :=
  G [Decl (TArr 2 (TArr 2 (TInt (NK true WWord)))) 32 SNone SNone] [] (TNamed 0) default_opts
   [K (bs "null") None (WOk (XL []));
    K (bs "[]") None (WOk (XL []));
    K (bs "[[]]") None (WOk (XL []));
    K (bs "[[1,2],[3,4]]") None (WOk (XL [(XL [(XI 1); (XI 2)]); (XL [(XI 3); (XI 4)])]));
    K (bs "[[1,2],[3,4],false,true,{},{""x"":""y""},[],null,42,3.14]") None (WOk (XL [(XL [(XI 1); (XI 2)]); (XL [(XI 3); (XI 4)])]));
    K (bs "[[1,2, 3,[],{}],[4,5, 6,[],{}],false,true,{},{""x"":""y""},[],null,42,3.14]") None (WOk (XL [(XL [(XI 1); (XI 2)]); (XL [(XI 4); (XI 5)])]));
    K (bs "true") None (WErr (Some 0) EUnexpected);
    K (bs "false") None (WErr (Some 0) EUnexpected);
    K (bs "1") None (WErr (Some 0) EUnexpected);
    K (bs "3.14") None (WErr (Some 0) EUnexpected);
    K (bs """text""") None (WErr (Some 0) EUnexpected);
    K (bs "{}") None (WErr (Some 0) EUnexpected);
    K (bs "{""x"":0}") None (WErr (Some 0) EUnexpected)].
Example g67_ideal : spec_group g67 = Some [].
Proof. vm_compute. reflexivity. Qed.
Example g67_conforms : (run_group false g67, run_group true g67) = ([], []).
Proof. vm_compute. reflexivity. Qed.
(* TestDecodeArrayLen0 *)
Definition g68 : group :=
  G [] [] (TArr 0 (TInt (NK true WWord))) default_opts
   [K (bs "null") None (WOk (XL []));
    K (bs "[]") None (WOk (XL []));
    K (bs "[1]") None (WOk (XL []));
    K (bs "[{}]") None (WOk (XL []));
    K (bs "[false,true,{},{""x"":""y""},[],null,42,3.14]") None (WOk (XL []));
    K (bs "true") None (WErr (Some 0) EUnexpected);
    K (bs "false") None (WErr (Some 0) EUnexpected);
    K (bs "1") None (WErr (Some 0) EUnexpected);
    K (bs "3.14") None (WErr (Some 0) EUnexpected);
    K (bs """text""") None (WErr (Some 0) EUnexpected);
    K (bs "{}") None (WErr (Some 0) EUnexpected);
    K (bs "{""x"":0}") None (WErr (Some 0) EUnexpected)].
Example g68_ideal : spec_group g68 = Some [].
Proof. vm_compute. reflexivity. Qed.
Example g68_conforms : (run_group false g68, run_group true g68) = ([], []).
Proof. vm_compute. reflexivity. Qed.
(* TestDecodeArrayLen02D *)
Definition g69 : group :=
  G [Decl (TArr 0 (TArr 0 (TInt (NK true WWord)))) 0 SNone SNone] [] (TNamed 0) default_opts
   [K (bs "null") None (WOk (XL []));
    K (bs "[]") None (WOk (XL []));
    K (bs "[1]") None (WOk (XL []));
    K (bs "[{}]") None (WOk (XL []));
    K (bs "[false,true,{},{""x"":""y""},[],null,42,3.14]") None (WOk (XL []));
    K (bs "true") None (WErr (Some 0) EUnexpected);
    K (bs "false") None (WErr (Some 0) EUnexpected);
    K (bs "1") None (WErr (Some 0) EUnexpected);
    K (bs "3.14") None (WErr (Some 0) EUnexpected);
    K (bs """text""") None (WErr (Some 0) EUnexpected);
    K (bs "{}") None (WErr (Some 0) EUnexpected);
    K (bs "{""x"":0}") None (WErr (Some 0) EUnexpected)].
Example g69_ideal : spec_group g69 = Some [].
Proof. vm_compute. reflexivity. Qed.
Example g69_conforms : (run_group false g69, run_group true g69) = ([], []).
Proof. vm_compute. reflexivity. Qed.
(* TestDecodeArrayArrayLen0 *)
Definition g70 : group :=
  G [Decl (TArr 2 (TArr 0 (TInt (NK true WWord)))) 0 SNone SNone] [] (TNamed 0) default_opts
   [K (bs "null") None (WOk (XL []));
    K (bs "[]") None (WOk (XL []));
    K (bs "[[],[],false,true,{},{""x"":""y""},[],null,42,3.14]") None (WOk (XL []));
    K (bs "[[""foo"",1.2],[""bar"",3.4],false,true,{},{""x"":""y""},[],null,42,3.14]") None (WOk (XL []));
    K (bs "[1,2]") None (WErr (Some 1) EUnexpected);
    K (bs "[{}]") None (WErr (Some 1) EUnexpected);
    K (bs "true") None (WErr (Some 0) EUnexpected);
    K (bs "false") None (WErr (Some 0) EUnexpected);
    K (bs "1") None (WErr (Some 0) EUnexpected);
    K (bs "3.14") None (WErr (Some 0) EUnexpected);
    K (bs """text""") None (WErr (Some 0) EUnexpected);
    K (bs "{}") None (WErr (Some 0) EUnexpected);
    K (bs "{""x"":0}") None (WErr (Some 0) EUnexpected)].
Example g70_ideal : spec_group g70 = Some [].
Proof. vm_compute. reflexivity. Qed.
Example g70_conforms : (run_group false g70, run_group true g70) = ([], []).
Proof. vm_compute. reflexivity. Qed.
(* TestDecodeArrayEmptyStruct *)
Definition g71 : group :=
  G [Decl (TStruct 0 0 []) 0 SNone SNone] [] (TArr 3 (TNamed 0)) default_opts
   [K (bs "null") None (WOk (XL []));
    K (bs "[]") None (WOk (XL []));
    K (bs "[{}]") None (WOk (XL []));
    K (bs "[{},{},{}]") None (WOk (XL []));
    K (bs "[{},{},{},{},{},{},{},{}, {}]") None (WOk (XL []));
    K (bs "true") None (WErr (Some 0) EUnexpected);
    K (bs "false") None (WErr (Some 0) EUnexpected);
    K (bs "1") None (WErr (Some 0) EUnexpected);
    K (bs """text""") None (WErr (Some 0) EUnexpected);
    K (bs "{}") None (WErr (Some 0) EUnexpected);
    K (bs "{""x"":0}") None (WErr (Some 0) EUnexpected)].
Example g71_ideal : spec_group g71 = Some [].
Proof. vm_compute. reflexivity. Qed.
Example g71_conforms : (run_group false g71, run_group true g71) = ([], []).
Proof. vm_compute. reflexivity. Qed.
(* TestDecodeStruct *)
Definition g72 : group :=
  G [Decl (TStruct 0 24 [(Fld (bs "Foo") (bs "foo") 0, TInt (NK true WWord)); (Fld (bs "Bar") (bs "bar") 8, TStr)]) 24 SNone SNone] [] (TNamed 0) default_opts
   [K (bs "{""foo"":42,""bar"":""bazz""}") None (WOk (XL [(XI 42); (XS (bs "bazz"))]));
    K (bs "{""bar"":""abc"",""foo"":1234}") None (WOk (XL [(XI 1234); (XS (bs "abc"))]));
    K (bs "{""FOO"":42,""BAR"":""bazz""}") None (WOk (XL [(XI 42); (XS (bs "bazz"))]));
    K (bs "{""Foo"":42,""Bar"":""bazz""}") None (WOk (XL [(XI 42); (XS (bs "bazz"))]));
    K (bs "{""foo"":null,""bar"":null}") None (WOk (XL [(XI 0); (XS [])]));
    K (bs "{""bar"":""bar""}") None (WOk (XL [XZ; (XS (bs "bar"))]));
    K (bs "{""foo"":12345}") None (WOk (XL [(XI 12345); XZ]));
    K (bs "{""bar"":""bar"",""unknown"":42,""foo"":102}") None (WOk (XL [(XI 102); (XS (bs "bar"))]));
    K (bs "{""unknown"":42, ""unknown2"": ""bad""}") None (WOk (XL [XZ; XZ]));
    K (bs "{}") None (WOk (XL [XZ; XZ]));
    K (bs "{""faz"":42,""baz"":""bazz""}") None (WOk (XL [XZ; XZ]));
    K (bs "{""foo"":42,""bar"":""bazz""}") (Some (XL [(XI 99); (XS (bs "predefined"))])) (WOk (XL [(XI 42); (XS (bs "bazz"))]));
    K (bs "{""foo"":42}") (Some (XL [(XI 99); (XS (bs "predefined"))])) (WOk (XL [(XI 42); (XS (bs "predefined"))]));
    K (bs "{""bar"":""newval""}") (Some (XL [(XI 99); (XS (bs "predefined"))])) (WOk (XL [(XI 99); (XS (bs "newval"))]));
    K (bs "{""fazz"":false}") (Some (XL [(XI 99); (XS (bs "predefined"))])) (WOk (XL [(XI 99); (XS (bs "predefined"))]));
    K (bs "1") None (WErr (Some 0) EUnexpected);
    K (bs "[]") None (WErr (Some 0) EUnexpected);
    K (bs """text""") None (WErr (Some 0) EUnexpected)].
Example g72_ideal : spec_group g72 = Some [].
Proof. vm_compute. reflexivity. Qed.
Example g72_conforms : (run_group false g72, run_group true g72) = ([], []).
Proof. vm_compute. reflexivity. Qed.
(* TestDecodeStructRecursivePtr *)
Definition g73 : group :=
  G [Decl (TStruct 0 40 [(Fld (bs "ID") [] 0, TStr); (Fld (bs "Name") [] 16, TStr); (Fld (bs "Recurse") [] 32, TPtr (TNamed 0))]) 40 SNone SNone] [] (TNamed 0) default_opts
   [K (bs "null") None (WOk (XL [XZ; XZ; XZ]));
    K (bs "{}") None (WOk (XL [XZ; XZ; XZ]));
    K (bs "{""id"":""root""}") None (WOk (XL [(XS (bs "root")); XZ; XZ]));
    K (bs "{""id"":""root"",""recurse"":{""id"":""level2"", ""name"": ""Level 2""}}") None (WOk (XL [(XS (bs "root")); XZ; (XP (XL [(XS (bs "level2")); (XS (bs "Level 2")); XZ]))]));
    K (bs "{
			""id"": ""root"",
			""recurse"": {
				""id"": ""level2"",
				""recurse"": {
					""id"": ""level3""
				}
			}
		}") None (WOk (XL [(XS (bs "root")); XZ; (XP (XL [(XS (bs "level2")); XZ; (XP (XL [(XS (bs "level3")); XZ; XZ]))]))]));
    K (bs "{
			""recurse"": {
				""recurse"": {
					""id"": ""level3""
				},
				""id"": ""level2""
			},
			""id"": ""root""
		}") None (WOk (XL [(XS (bs "root")); XZ; (XP (XL [(XS (bs "level2")); XZ; (XP (XL [(XS (bs "level3")); XZ; XZ]))]))]));
    K (bs "{
			""recurse"": {
				""recurse"": {}
			}
		}") None (WOk (XL [XZ; XZ; (XP (XL [XZ; XZ; (XP (XL [XZ; XZ; XZ]))]))]));
    K (bs "{
			""id"": ""root"",
			""recurse"": null
		}") None (WOk (XL [(XS (bs "root")); XZ; XNil]));
    K (bs "{
			""id"": ""root"",
			""recurse"": {}
		}") None (WOk (XL [(XS (bs "root")); XZ; (XP (XL [XZ; XZ; XZ]))]));
    K (bs "{
			""id"": ""root"",
			""recurse"": {
				""id"":""level2"",
				""recurse"": null
			}
		}") None (WOk (XL [(XS (bs "root")); XZ; (XP (XL [(XS (bs "level2")); XZ; XNil]))]));
    K (bs "{
			""id"": ""root"",
			""recurse"": {
				""id"":""level2"",
				""recurse"": {}
			}
		}") None (WOk (XL [(XS (bs "root")); XZ; (XP (XL [(XS (bs "level2")); XZ; (XP (XL [XZ; XZ; XZ]))]))]));
    K (bs "{
			""recurse"": {
				""recurse"": {
					""unknown"":[""okay""]
				}
			}
		}") None (WOk (XL [XZ; XZ; (XP (XL [XZ; XZ; (XP (XL [XZ; XZ; XZ]))]))]));
    K (bs "{
			""RECURSE"": {
				""RECURSE"": {
					""ID"": ""level3""
				},
				""ID"": ""level2""
			},
			""ID"": ""root""
		}") None (WOk (XL [(XS (bs "root")); XZ; (XP (XL [(XS (bs "level2")); XZ; (XP (XL [(XS (bs "level3")); XZ; XZ]))]))]));
    K (bs "{""name"":""Root"", ""recurse"":{""name"": ""L2""}}") (Some (XL [(XS (bs "root")); XZ; (XP (XL [(XS (bs "level2")); XZ; XZ]))])) (WOk (XL [(XS (bs "root")); (XS (bs "Root")); (XP (XL [(XS (bs "level2")); (XS (bs "L2")); XZ]))]));
    K (bs "{""name"":""Root"", ""recurse"":null}") (Some (XL [(XS (bs "root")); XZ; (XP (XL [(XS (bs "level2")); XZ; XZ]))])) (WOk (XL [(XS (bs "root")); (XS (bs "Root")); XNil]));
    K (bs "{""name"":""Root"", ""recurse"":{}}") (Some (XL [(XS (bs "root")); XZ; (XP (XL [(XS (bs "level2")); XZ; XZ]))])) (WOk (XL [(XS (bs "root")); (XS (bs "Root")); (XP (XL [(XS (bs "level2")); XZ; XZ]))]));
    K (bs "{""name"":""Root"", ""recurse"":{""fuzz"":""inexistent""}}") (Some (XL [(XS (bs "root")); XZ; (XP (XL [(XS (bs "level2")); XZ; XZ]))])) (WOk (XL [(XS (bs "root")); (XS (bs "Root")); (XP (XL [(XS (bs "level2")); XZ; XZ]))]));
    K (bs "{""id"":""root"",""recurse"":[]}") None (WErr (Some 23) EUnexpected);
    K (bs "{""id"":""root"",""recurse"":{""id"":""2"",""recurse"":""x""}}") None (WErr (Some 43) EUnexpected);
    K (bs "1") None (WErr (Some 0) EUnexpected);
    K (bs "[]") None (WErr (Some 0) EUnexpected);
    K (bs """text""") None (WErr (Some 0) EUnexpected)].
Example g73_ideal : rspec_group RSelf g73 = [].
Proof. vm_compute. reflexivity. Qed.
Example g73_conforms : (run_group false g73, run_group true g73) = ([], []).
Proof. vm_compute. reflexivity. Qed.
(* TestDecodeStructRecursiveSlice *)
Definition g74 : group :=
  G [Decl (TStruct 0 56 [(Fld (bs "ID") [] 0, TStr); (Fld (bs "Name") [] 16, TStr); (Fld (bs "Recurse") [] 32, TSlice (TNamed 0))]) 56 SNone SNone] [] (TNamed 0) default_opts
   [K (bs "null") None (WOk (XL [XZ; XZ; XZ]));
    K (bs "{}") None (WOk (XL [XZ; XZ; XZ]));
    K (bs "{""id"":""root""}") None (WOk (XL [(XS (bs "root")); XZ; XZ]));
    K (bs "{""id"":""root"",""recurse"":[{""id"":""level2"", ""name"": ""Level 2""}]}") None (WOk (XL [(XS (bs "root")); XZ; (XL [(XL [(XS (bs "level2")); (XS (bs "Level 2")); XZ])])]));
    K (bs "{
			""id"": ""root"",
			""recurse"": [{
				""id"": ""level2"",
				""recurse"": [{
					""id"": ""level3""
				}]
			}]
		}") None (WOk (XL [(XS (bs "root")); XZ; (XL [(XL [(XS (bs "level2")); XZ; (XL [(XL [(XS (bs "level3")); XZ; XZ])])])])]));
    K (bs "{
			""recurse"": [{
				""recurse"": [{
					""id"": ""level3""
				}],
				""id"": ""level2""
			}],
			""id"": ""root""
		}") None (WOk (XL [(XS (bs "root")); XZ; (XL [(XL [(XS (bs "level2")); XZ; (XL [(XL [(XS (bs "level3")); XZ; XZ])])])])]));
    K (bs "{
			""recurse"": [{
				""recurse"": [{}]
			}]
		}") None (WOk (XL [XZ; XZ; (XL [(XL [XZ; XZ; (XL [(XL [XZ; XZ; XZ])])])])]));
    K (bs "{
			""id"": ""root"",
			""recurse"": null
		}") None (WOk (XL [(XS (bs "root")); XZ; XNil]));
    K (bs "{
			""id"": ""root"",
			""recurse"": []
		}") None (WOk (XL [(XS (bs "root")); XZ; (XL [])]));
    K (bs "{
			""id"": ""root"",
			""recurse"": [{
				""id"":""level2"",
				""recurse"": null
			}]
		}") None (WOk (XL [(XS (bs "root")); XZ; (XL [(XL [(XS (bs "level2")); XZ; XNil])])]));
    K (bs "{
			""id"": ""root"",
			""recurse"": [{
				""id"":""level2"",
				""recurse"": [{}]
			}]
		}") None (WOk (XL [(XS (bs "root")); XZ; (XL [(XL [(XS (bs "level2")); XZ; (XL [(XL [XZ; XZ; XZ])])])])]));
    K (bs "{
			""recurse"": [{
				""recurse"": [{
					""unknown"":[""okay""]
				}]
			}]
		}") None (WOk (XL [XZ; XZ; (XL [(XL [XZ; XZ; (XL [(XL [XZ; XZ; XZ])])])])]));
    K (bs "{
			""RECURSE"": [{
				""RECURSE"": [{
					""ID"": ""level3""
				}],
				""ID"": ""level2""
			}],
			""ID"": ""root""
		}") None (WOk (XL [(XS (bs "root")); XZ; (XL [(XL [(XS (bs "level2")); XZ; (XL [(XL [(XS (bs "level3")); XZ; XZ])])])])]));
    K (bs "{""name"":""Root"", ""recurse"":[{""name"": ""L2""}]}") (Some (XL [(XS (bs "root")); XZ; (XL [(XL [(XS (bs "level2")); XZ; XZ])])])) (WOk (XL [(XS (bs "root")); (XS (bs "Root")); (XL [(XL [(XS (bs "level2")); (XS (bs "L2")); XZ])])]));
    K (bs "{""name"":""Root"", ""recurse"":null}") (Some (XL [(XS (bs "root")); XZ; (XL [(XL [(XS (bs "level2")); XZ; XZ])])])) (WOk (XL [(XS (bs "root")); (XS (bs "Root")); XNil]));
    K (bs "{""name"":""Root"", ""recurse"":[{}]}") (Some (XL [(XS (bs "root")); XZ; (XL [(XL [(XS (bs "level2")); XZ; XZ])])])) (WOk (XL [(XS (bs "root")); (XS (bs "Root")); (XL [(XL [(XS (bs "level2")); XZ; XZ])])]));
    K (bs "{""name"":""Root"", ""recurse"":[{""fuzz"":""inexistent""}]}") (Some (XL [(XS (bs "root")); XZ; (XL [(XL [(XS (bs "level2")); XZ; XZ])])])) (WOk (XL [(XS (bs "root")); (XS (bs "Root")); (XL [(XL [(XS (bs "level2")); XZ; XZ])])]));
    K (bs "{""id"":""root"",""recurse"":{}}") None (WErr (Some 23) EUnexpected);
    K (bs "{""id"":""root"",""recurse"":[{""id"":""2"",""recurse"":""x""}]}") None (WErr (Some 44) EUnexpected);
    K (bs "1") None (WErr (Some 0) EUnexpected);
    K (bs "[]") None (WErr (Some 0) EUnexpected);
    K (bs """text""") None (WErr (Some 0) EUnexpected)].
Example g74_ideal : rspec_group RSlice g74 = [].
Proof. vm_compute. reflexivity. Qed.
Example g74_conforms : (run_group false g74, run_group true g74) = ([], []).
Proof. vm_compute. reflexivity. Qed.
(* TestDecodeStructRecursiveMap *)
Definition g75 : group :=
  G [Decl (TStruct 0 40 [(Fld (bs "ID") [] 0, TStr); (Fld (bs "Name") [] 16, TStr); (Fld (bs "Recurse") [] 32, TMap (TStr) (TNamed 0))]) 40 SNone SNone] [] (TNamed 0) default_opts
   [K (bs "null") None (WOk (XL [XZ; XZ; XZ]));
    K (bs "{}") None (WOk (XL [XZ; XZ; XZ]));
    K (bs "{""id"":""root""}") None (WOk (XL [(XS (bs "root")); XZ; XZ]));
    K (bs "{""id"":""root"",""recurse"":{""L2"": {""id"":""level2"", ""name"": ""Level 2""}}}") None (WOk (XL [(XS (bs "root")); XZ; (XM [((XS (bs "L2")), (XL [(XS (bs "level2")); (XS (bs "Level 2")); XZ]))])]));
    K (bs "{
			""id"": ""root"",
			""recurse"": {""L2"": {
				""id"": ""level2"",
				""recurse"": {""L3"": {
					""id"": ""level3""
				}}
			}}
		}") None (WOk (XL [(XS (bs "root")); XZ; (XM [((XS (bs "L2")), (XL [(XS (bs "level2")); XZ; (XM [((XS (bs "L3")), (XL [(XS (bs "level3")); XZ; XZ]))])]))])]));
    K (bs "{
			""recurse"": {""L2"": {
				""recurse"": {""L3"": {
					""id"": ""level3""
				}},
				""id"": ""level2""
			}},
			""id"": ""root""
		}") None (WOk (XL [(XS (bs "root")); XZ; (XM [((XS (bs "L2")), (XL [(XS (bs "level2")); XZ; (XM [((XS (bs "L3")), (XL [(XS (bs "level3")); XZ; XZ]))])]))])]));
    K (bs "{
			""recurse"": {""E"": {
				""recurse"": {""E2"": {}}
			}}
		}") None (WOk (XL [XZ; XZ; (XM [((XS (bs "E")), (XL [XZ; XZ; (XM [((XS (bs "E2")), (XL [XZ; XZ; XZ]))])]))])]));
    K (bs "{
			""id"": ""root"",
			""recurse"": null
		}") None (WOk (XL [(XS (bs "root")); XZ; XNil]));
    K (bs "{
			""id"": ""root"",
			""recurse"": {}
		}") None (WOk (XL [(XS (bs "root")); XZ; (XM [])]));
    K (bs "{
			""id"": ""root"",
			""recurse"": {""L2"": {
				""id"":""level2"",
				""recurse"": null
			}}
		}") None (WOk (XL [(XS (bs "root")); XZ; (XM [((XS (bs "L2")), (XL [(XS (bs "level2")); XZ; XNil]))])]));
    K (bs "{
			""id"": ""root"",
			""recurse"": {""L2"": {
				""id"":""level2"",
				""recurse"": {""L3"": {}}
			}}
		}") None (WOk (XL [(XS (bs "root")); XZ; (XM [((XS (bs "L2")), (XL [(XS (bs "level2")); XZ; (XM [((XS (bs "L3")), (XL [XZ; XZ; XZ]))])]))])]));
    K (bs "{
			""recurse"": {""L2"": {
				""recurse"": {""L3"": {
					""unknown"":[""okay""]
				}}
			}}
		}") None (WOk (XL [XZ; XZ; (XM [((XS (bs "L2")), (XL [XZ; XZ; (XM [((XS (bs "L3")), (XL [XZ; XZ; XZ]))])]))])]));
    K (bs "{
			""RECURSE"": {""L2"": {
				""RECURSE"": {""L3"": {
					""ID"": ""level3""
				}},
				""ID"": ""level2""
			}},
			""ID"": ""root""
		}") None (WOk (XL [(XS (bs "root")); XZ; (XM [((XS (bs "L2")), (XL [(XS (bs "level2")); XZ; (XM [((XS (bs "L3")), (XL [(XS (bs "level3")); XZ; XZ]))])]))])]));
    K (bs "{""name"":""Root"", ""recurse"":{""L2"": {""name"": ""L2""}}}") (Some (XL [(XS (bs "root")); XZ; (XM [((XS (bs "L2")), (XL [(XS (bs "level2")); XZ; XZ]))])])) (WOk (XL [(XS (bs "root")); (XS (bs "Root")); (XM [((XS (bs "L2")), (XL [XZ; (XS (bs "L2")); XNil]))])]));
    K (bs "{""name"":""Root"", ""recurse"":null}") (Some (XL [(XS (bs "root")); XZ; (XM [((XS (bs "L2")), (XL [(XS (bs "level2")); XZ; XZ]))])])) (WOk (XL [(XS (bs "root")); (XS (bs "Root")); XNil]));
    K (bs "{""name"":""Root"", ""recurse"":{""L2"": {}}}") (Some (XL [(XS (bs "root")); XZ; (XM [((XS (bs "L2")), (XL [(XS (bs "level2")); XZ; XZ]))])])) (WOk (XL [(XS (bs "root")); (XS (bs "Root")); (XM [((XS (bs "L2")), (XL [XZ; XZ; XZ]))])]));
    K (bs "{""name"":""Root"", ""recurse"":{""L2"": {""fuzz"":""inexistent""}}}") (Some (XL [(XS (bs "root")); XZ; (XM [((XS (bs "L2")), (XL [(XS (bs "level2")); XZ; XZ]))])])) (WOk (XL [(XS (bs "root")); (XS (bs "Root")); (XM [((XS (bs "L2")), (XL [XZ; XZ; XZ]))])]));
    K (bs "{""id"":""root"",""recurse"":[]}") None (WErr (Some 23) EUnexpected);
    K (bs "{""id"":""root"",""recurse"":{""L2"": {""id"":""2"",""recurse"":""x""}}}") None (WErr (Some 50) EUnexpected);
    K (bs "1") None (WErr (Some 0) EUnexpected);
    K (bs "[]") None (WErr (Some 0) EUnexpected);
    K (bs """text""") None (WErr (Some 0) EUnexpected)].
Example g75_ideal : rspec_group (RMap KeyStr) g75 = [].
Proof. vm_compute. reflexivity. Qed.
Example g75_conforms : (run_group false g75, run_group true g75) = ([], []).
Proof. vm_compute. reflexivity. Qed.
(* TestDecodeStructErrUknownField *)
Definition g76 : group :=
  G [Decl (TStruct 0 24 [(Fld (bs "Foo") (bs "foo") 0, TInt (NK true WWord)); (Fld (bs "Bar") (bs "bar") 8, TStr)]) 24 SNone SNone] [] (TNamed 0) (Opts true false false)
   [K (bs "{""foo"":42,""bar"":""bazz""}") None (WOk (XL [(XI 42); (XS (bs "bazz"))]));
    K (bs "{""bar"":""abc"",""foo"":1234}") None (WOk (XL [(XI 1234); (XS (bs "abc"))]));
    K (bs "{""FOO"":42,""BAR"":""bazz""}") None (WOk (XL [(XI 42); (XS (bs "bazz"))]));
    K (bs "{""Foo"":42,""Bar"":""bazz""}") None (WOk (XL [(XI 42); (XS (bs "bazz"))]));
    K (bs "{""foo"":null,""bar"":null}") None (WOk (XL [(XI 0); (XS [])]));
    K (bs "{""bar"":""bar""}") None (WOk (XL [XZ; (XS (bs "bar"))]));
    K (bs "{""foo"":12345}") None (WOk (XL [(XI 12345); XZ]));
    K (bs "{}") None (WOk (XL [XZ; XZ]));
    K (bs "{""bar"":""bar"",""unknown"":42,""foo"":102}") None (WErr (Some 13) EUnknownField);
    K (bs "{""unknown"":42, ""unknown2"": ""bad""}") None (WErr (Some 1) EUnknownField);
    K (bs "{""faz"":42,""baz"":""bazz""}") None (WErr (Some 1) EUnknownField);
    K (bs "1") None (WErr (Some 0) EUnexpected);
    K (bs "[]") None (WErr (Some 0) EUnexpected);
    K (bs """text""") None (WErr (Some 0) EUnexpected)].
Example g76_ideal : spec_group g76 = Some [].
Proof. vm_compute. reflexivity. Qed.
Example g76_conforms : (run_group false g76, run_group true g76) = ([], []).
Proof. vm_compute. reflexivity. Qed.
(* TestDecodeStructFields *)
Definition g77 : group :=
  G [Decl (TStruct 0 48 [(Fld (bs "Any") [] 0, TAny); (Fld (bs "Map") [] 16, TMap (TStr) (TAny)); (Fld (bs "Slice") [] 24, TSlice (TAny))]) 48 SNone SNone] [] (TNamed 0) default_opts
   [K (bs "{""any"":42,""Map"":{""foo"":""bar""},""SLICE"":[1,false,""x""]}") None (WOk (XL [(XF 42 0); (XM [((XS (bs "foo")), (XS (bs "bar")))]); (XL [(XF 1 0); (XB false); (XS (bs "x"))])]));
    K (bs "{""map"":{},""slice"":[{""1"":""2"", ""3"":4},null,[]],""any"":{""x"":""y""}}") None (WOk (XL [(XM [((XS (bs "x")), (XS (bs "y")))]); (XM []); (XL [(XM [((XS (bs "1")), (XS (bs "2"))); ((XS (bs "3")), (XF 4 0))]); XNil; (XL [])])]));
    K (bs "{""map"":null,""slice"":null,""any"":null}") None (WOk (XL [XZ; XZ; XZ]));
    K [123; 34; 115; 108; 105; 99; 101; 34; 58; 91; 123; 34; 120; 34; 58; 102; 97; 108; 115; 101; 44; 34; 121; 34; 58; 52; 50; 125; 44; 123; 34; 208; 152; 208; 188; 209; 143; 34; 58; 34; 102; 111; 111; 34; 125; 44; 123; 34; 120; 34; 58; 123; 125; 125; 93; 125] None (WOk (XL [XZ; XZ; (XL [(XM [((XS (bs "x")), (XB false)); ((XS (bs "y")), (XF 42 0))]); (XM [((XS [208; 152; 208; 188; 209; 143]), (XS (bs "foo")))]); (XM [((XS (bs "x")), (XM []))])])]));
    K (bs "null") None (WOk (XL [XZ; XZ; XZ]));
    K (bs "{}") None (WOk (XL [XZ; XZ; XZ]));
    K (bs "{""faz"":42,""baz"":""bazz""}") None (WOk (XL [XZ; XZ; XZ]));
    K (bs "1") None (WErr (Some 0) EUnexpected);
    K (bs "[]") None (WErr (Some 0) EUnexpected);
    K (bs """text""") None (WErr (Some 0) EUnexpected)].
Example g77_ideal : spec_group g77 = Some [].
Proof. vm_compute. reflexivity. Qed.
Example g77_conforms : (run_group false g77, run_group true g77) = ([], []).
Proof. vm_compute. reflexivity. Qed.
(* TestDecodeStringTagBool *)
Definition g78 : group :=
  G [Decl (TStruct 0 1 [(Fld (bs "Bool") (bs ",string") 0, TBool)]) 1 SNone SNone] [] (TNamed 0) default_opts
   [K (bs "{""bool"":null}") None (WOk (XL [(XB false)]));
    K (bs "{""bool"":""false""}") None (WOk (XL [(XB false)]));
    K (bs "{""bool"":""true""}") None (WOk (XL [(XB true)]));
    K (bs "{}") None (WOk (XL [XZ]));
    K (bs "null") None (WOk (XL [XZ]));
    K (bs "{""bool"":""""}") None (WErr (Some 8) EUnexpected);
    K (bs "{""bool"":""text""}") None (WErr (Some 8) EUnexpected);
    K (bs "{""bool"":""1""}") None (WErr (Some 8) EUnexpected);
    K (bs "{""bool"":""0""}") None (WErr (Some 8) EUnexpected);
    K (bs "{""bool"":"" true""}") None (WErr (Some 8) EUnexpected);
    K (bs "{""bool"":""true ""}") None (WErr (Some 8) EUnexpected);
    K (bs "{""bool"":""true true""}") None (WErr (Some 8) EUnexpected);
    K (bs "{""bool"":""true\n""}") None (WErr (Some 8) EUnexpected);
    K (bs "{""bool"":""trueabc""}") None (WErr (Some 8) EUnexpected);
    K (bs "{""bool"":""truefalse""}") None (WErr (Some 8) EUnexpected);
    K (bs "1") None (WErr (Some 0) EUnexpected);
    K (bs "[]") None (WErr (Some 0) EUnexpected);
    K (bs """text""") None (WErr (Some 0) EUnexpected)].
Example g78_ideal : spec_group g78 = Some [].
Proof. vm_compute. reflexivity. Qed.
Example g78_conforms : (run_group false g78, run_group true g78) = ([], []).
Proof. vm_compute. reflexivity. Qed.
(* TestDecodeStringTagString *)
Definition g79 : group :=
  G [Decl (TStruct 0 16 [(Fld (bs "String") (bs ",string") 0, TStr)]) 16 SNone SNone] [] (TNamed 0) default_opts
   [K (bs "{""string"":""\""\""""}") None (WOk (XL [(XS [])]));
    K (bs "{""string"":""\"" \""""}") None (WOk (XL [(XS (bs " "))]));
    K (bs "{""string"":""\""text\""""}") None (WOk (XL [(XS (bs "text"))]));
    K (bs "{}") None (WOk (XL [XZ]));
    K (bs "null") None (WOk (XL [XZ]));
    K (bs "{""string"":""""}") None (WErr (Some 10) EUnexpected);
    K (bs "{""string"":"" \""\""""}") None (WErr (Some 10) EUnexpected);
    K (bs "{""string"":""\""\"" ""}") None (WErr (Some 10) EUnexpected);
    K (bs "{""string"":""\""first\""\""second\""""}") None (WErr (Some 10) EUnexpected);
    K (bs "{""string"":""\""okay\""\n""}") None (WErr (Some 10) EUnexpected);
    K (bs "{""string"":""\""okay\""abc""}") None (WErr (Some 10) EUnexpected);
    K (bs "{""string"":""\""ok\""\""ay\""""}") None (WErr (Some 10) EUnexpected);
    K (bs "1") None (WErr (Some 0) EUnexpected);
    K (bs "[]") None (WErr (Some 0) EUnexpected);
    K (bs """text""") None (WErr (Some 0) EUnexpected)].
Example g79_ideal : spec_group g79 = Some [].
Proof. vm_compute. reflexivity. Qed.
Example g79_conforms : (run_group false g79, run_group true g79) = ([], []).
Proof. vm_compute. reflexivity. Qed.
(* TestDecodeStringTagInt *)
Definition g80 : group :=
  G [Decl (TStruct 0 8 [(Fld (bs "Int") (bs ",string") 0, TInt (NK true WWord))]) 8 SNone SNone] [] (TNamed 0) default_opts
   [K (bs "{}") None (WOk (XL [XZ]));
    K (bs "null") None (WOk (XL [XZ]));
    K (bs "{""int"":""-9223372036854775808""}") None (WOk (XL [(XI (-9223372036854775808))]));
    K (bs "{""int"":""9223372036854775807""}") None (WOk (XL [(XI 9223372036854775807)]));
    K (bs "{""int"":""9223372036854775808""}") None (WErr (Some 7) EUnexpected);
    K (bs "{""int"":""-9223372036854775809""}") None (WErr (Some 7) EUnexpected);
    K (bs "{""int"":""3.14""}") None (WErr (Some 7) EUnexpected);
    K (bs "{""int"":""3e2""}") None (WErr (Some 7) EUnexpected)].
Example g80_ideal : spec_group g80 = Some [].
Proof. vm_compute. reflexivity. Qed.
Example g80_conforms : (run_group false g80, run_group true g80) = ([], []).
Proof. vm_compute. reflexivity. Qed.
(* TestDecodeStringTagInt8 *)
Definition g81 : group :=
  G [Decl (TStruct 0 1 [(Fld (bs "Int8") (bs ",string") 0, TInt (NK true W8))]) 1 SNone SNone] [] (TNamed 0) default_opts
   [K (bs "{}") None (WOk (XL [XZ]));
    K (bs "null") None (WOk (XL [XZ]));
    K (bs "{""int8"":""-128""}") None (WOk (XL [(XI (-128))]));
    K (bs "{""int8"":""127""}") None (WOk (XL [(XI 127)]));
    K (bs "{""int8"":""128""}") None (WErr (Some 8) EUnexpected);
    K (bs "{""int8"":""-129""}") None (WErr (Some 8) EUnexpected);
    K (bs "{""int8"":""3.14""}") None (WErr (Some 8) EUnexpected);
    K (bs "{""int8"":""3e2""}") None (WErr (Some 8) EUnexpected)].
Example g81_ideal : spec_group g81 = Some [].
Proof. vm_compute. reflexivity. Qed.
Example g81_conforms : (run_group false g81, run_group true g81) = ([], []).
Proof. vm_compute. reflexivity. Qed.
(* TestDecodeStringTagInt16 *)
Definition g82 : group :=
  G [Decl (TStruct 0 2 [(Fld (bs "Int16") (bs ",string") 0, TInt (NK true W16))]) 2 SNone SNone] [] (TNamed 0) default_opts
   [K (bs "{}") None (WOk (XL [XZ]));
    K (bs "null") None (WOk (XL [XZ]));
    K (bs "{""int16"":""-32768""}") None (WOk (XL [(XI (-32768))]));
    K (bs "{""int16"":""32767""}") None (WOk (XL [(XI 32767)]));
    K (bs "{""int16"":""32768""}") None (WErr (Some 9) EUnexpected);
    K (bs "{""int16"":""-32769""}") None (WErr (Some 9) EUnexpected);
    K (bs "{""int16"":""3.14""}") None (WErr (Some 9) EUnexpected);
    K (bs "{""int16"":""3e2""}") None (WErr (Some 9) EUnexpected)].
Example g82_ideal : spec_group g82 = Some [].
Proof. vm_compute. reflexivity. Qed.
Example g82_conforms : (run_group false g82, run_group true g82) = ([], []).
Proof. vm_compute. reflexivity. Qed.
(* TestDecodeStringTagInt32 *)
Definition g83 : group :=
  G [Decl (TStruct 0 4 [(Fld (bs "Int32") (bs ",string") 0, TInt (NK true W32))]) 4 SNone SNone] [] (TNamed 0) default_opts
   [K (bs "{}") None (WOk (XL [XZ]));
    K (bs "null") None (WOk (XL [XZ]));
    K (bs "{""int32"":""-2147483648""}") None (WOk (XL [(XI (-2147483648))]));
    K (bs "{""int32"":""2147483647""}") None (WOk (XL [(XI 2147483647)]));
    K (bs "{""int32"":""2147483648""}") None (WErr (Some 9) EUnexpected);
    K (bs "{""int32"":""-2147483649""}") None (WErr (Some 9) EUnexpected);
    K (bs "{""int32"":""3.14""}") None (WErr (Some 9) EUnexpected);
    K (bs "{""int32"":""3e2""}") None (WErr (Some 9) EUnexpected)].
Example g83_ideal : spec_group g83 = Some [].
Proof. vm_compute. reflexivity. Qed.
Example g83_conforms : (run_group false g83, run_group true g83) = ([], []).
Proof. vm_compute. reflexivity. Qed.
(* TestDecodeStringTagInt64 *)
Definition g84 : group :=
  G [Decl (TStruct 0 8 [(Fld (bs "Int64") (bs ",string") 0, TInt (NK true W64))]) 8 SNone SNone] [] (TNamed 0) default_opts
   [K (bs "{}") None (WOk (XL [XZ]));
    K (bs "null") None (WOk (XL [XZ]));
    K (bs "{""int64"":""-9223372036854775808""}") None (WOk (XL [(XI (-9223372036854775808))]));
    K (bs "{""int64"":""9223372036854775807""}") None (WOk (XL [(XI 9223372036854775807)]));
    K (bs "{""int64"":""9223372036854775808""}") None (WErr (Some 9) EUnexpected);
    K (bs "{""int64"":""-9223372036854775809""}") None (WErr (Some 9) EUnexpected);
    K (bs "{""int64"":""3.14""}") None (WErr (Some 9) EUnexpected);
    K (bs "{""int64"":""3e2""}") None (WErr (Some 9) EUnexpected)].
Example g84_ideal : spec_group g84 = Some [].
Proof. vm_compute. reflexivity. Qed.
Example g84_conforms : (run_group false g84, run_group true g84) = ([], []).
Proof. vm_compute. reflexivity. Qed.
(* TestDecodeStringTagUint *)
Definition g85 : group :=
  G [Decl (TStruct 0 8 [(Fld (bs "Uint") (bs ",string") 0, TInt (NK false WWord))]) 8 SNone SNone] [] (TNamed 0) default_opts
   [K (bs "{}") None (WOk (XL [XZ]));
    K (bs "null") None (WOk (XL [XZ]));
    K (bs "{""uint"":""0""}") None (WOk (XL [(XI 0)]));
    K (bs "{""uint"":""18446744073709551615""}") None (WOk (XL [(XI 18446744073709551615)]));
    K (bs "{""uint"":""18446744073709551616""}") None (WErr (Some 8) EUnexpected);
    K (bs "{""uint"":""-1""}") None (WErr (Some 8) EUnexpected);
    K (bs "{""uint"":""3.14""}") None (WErr (Some 8) EUnexpected);
    K (bs "{""uint"":""3e2""}") None (WErr (Some 8) EUnexpected)].
Example g85_ideal : spec_group g85 = Some [].
Proof. vm_compute. reflexivity. Qed.
Example g85_conforms : (run_group false g85, run_group true g85) = ([], []).
Proof. vm_compute. reflexivity. Qed.
(* TestDecodeStringTagUint8 *)
Definition g86 : group :=
  G [Decl (TStruct 0 1 [(Fld (bs "Uint8") (bs ",string") 0, TInt (NK false W8))]) 1 SNone SNone] [] (TNamed 0) default_opts
   [K (bs "{}") None (WOk (XL [XZ]));
    K (bs "null") None (WOk (XL [XZ]));
    K (bs "{""uint8"":""0""}") None (WOk (XL [(XI 0)]));
    K (bs "{""uint8"":""255""}") None (WOk (XL [(XI 255)]));
    K (bs "{""uint8"":""256""}") None (WErr (Some 9) EUnexpected);
    K (bs "{""uint8"":""-1""}") None (WErr (Some 9) EUnexpected);
    K (bs "{""uint8"":""3.14""}") None (WErr (Some 9) EUnexpected);
    K (bs "{""uint8"":""3e2""}") None (WErr (Some 9) EUnexpected)].
Example g86_ideal : spec_group g86 = Some [].
Proof. vm_compute. reflexivity. Qed.
Example g86_conforms : (run_group false g86, run_group true g86) = ([], []).
Proof. vm_compute. reflexivity. Qed.
(* TestDecodeStringTagUint16 *)
Definition g87 : group :=
  G [Decl (TStruct 0 2 [(Fld (bs "Uint16") (bs ",string") 0, TInt (NK false W16))]) 2 SNone SNone] [] (TNamed 0) default_opts
   [K (bs "{}") None (WOk (XL [XZ]));
    K (bs "null") None (WOk (XL [XZ]));
    K (bs "{""uint16"":""0""}") None (WOk (XL [(XI 0)]));
    K (bs "{""uint16"":""65535""}") None (WOk (XL [(XI 65535)]));
    K (bs "{""uint16"":""65536""}") None (WErr (Some 10) EUnexpected);
    K (bs "{""uint16"":""-1""}") None (WErr (Some 10) EUnexpected);
    K (bs "{""uint16"":""3.14""}") None (WErr (Some 10) EUnexpected);
    K (bs "{""uint16"":""3e2""}") None (WErr (Some 10) EUnexpected)].
Example g87_ideal : spec_group g87 = Some [].
Proof. vm_compute. reflexivity. Qed.
Example g87_conforms : (run_group false g87, run_group true g87) = ([], []).
Proof. vm_compute. reflexivity. Qed.
(* TestDecodeStringTagUint32 *)
Definition g88 : group :=
  G [Decl (TStruct 0 4 [(Fld (bs "Uint32") (bs ",string") 0, TInt (NK false W32))]) 4 SNone SNone] [] (TNamed 0) default_opts
   [K (bs "{}") None (WOk (XL [XZ]));
    K (bs "null") None (WOk (XL [XZ]));
    K (bs "{""uint32"":""0""}") None (WOk (XL [(XI 0)]));
    K (bs "{""uint32"":""4294967295""}") None (WOk (XL [(XI 4294967295)]));
    K (bs "{""uint32"":""4294967296""}") None (WErr (Some 10) EUnexpected);
    K (bs "{""uint32"":""-1""}") None (WErr (Some 10) EUnexpected);
    K (bs "{""uint32"":""3.14""}") None (WErr (Some 10) EUnexpected);
    K (bs "{""uint32"":""3e2""}") None (WErr (Some 10) EUnexpected)].
Example g88_ideal : spec_group g88 = Some [].
Proof. vm_compute. reflexivity. Qed.
Example g88_conforms : (run_group false g88, run_group true g88) = ([], []).
Proof. vm_compute. reflexivity. Qed.
(* TestDecodeStringTagUint64 *)
Definition g89 : group :=
  G [Decl (TStruct 0 8 [(Fld (bs "Uint64") (bs ",string") 0, TInt (NK false W64))]) 8 SNone SNone] [] (TNamed 0) default_opts
   [K (bs "{}") None (WOk (XL [XZ]));
    K (bs "null") None (WOk (XL [XZ]));
    K (bs "{""uint64"":""0""}") None (WOk (XL [(XI 0)]));
    K (bs "{""uint64"":""18446744073709551615""}") None (WOk (XL [(XI 18446744073709551615)]));
    K (bs "{""uint64"":""18446744073709551616""}") None (WErr (Some 10) EUnexpected);
    K (bs "{""uint64"":""-1""}") None (WErr (Some 10) EUnexpected);
    K (bs "{""uint64"":""3.14""}") None (WErr (Some 10) EUnexpected);
    K (bs "{""uint64"":""3e2""}") None (WErr (Some 10) EUnexpected)].
Example g89_ideal : spec_group g89 = Some [].
Proof. vm_compute. reflexivity. Qed.
Example g89_conforms : (run_group false g89, run_group true g89) = ([], []).
Proof. vm_compute. reflexivity. Qed.
(* TestDecodeStringTagFloat32 *)
Definition g90 : group :=
  G [Decl (TStruct 0 4 [(Fld (bs "Float32") (bs ",string") 0, TFloat B32)]) 4 SNone SNone] [] (TNamed 0) default_opts
   [K (bs "{}") None (WOk (XL [XZ]));
    K (bs "null") None (WOk (XL [XZ]));
    K (bs "{""float32"":""0""}") None (WOk (XL [(XF 0 0)]));
    K (bs "{""float32"":""123""}") None (WOk (XL [(XF 123 0)]));
    K (bs "{""float32"":""-3.1415927""}") None (WOk (XL [(XF (-31415927) (-7))]));
    K (bs "{""float32"":""6.022e23""}") None (WOk (XL [(XF 6022 20)]));
    K (bs "{""float32"":""3.5e38""}") None (WErr (Some 11) EParse)].
Example g90_ideal : spec_group g90 = Some [].
Proof. vm_compute. reflexivity. Qed.
Example g90_conforms : (run_group false g90, run_group true g90) = ([], []).
Proof. vm_compute. reflexivity. Qed.
(* TestDecodeStringTagFloat64 *)
Definition g91 : group :=
  G [Decl (TStruct 0 8 [(Fld (bs "Float64") (bs ",string") 0, TFloat B64)]) 8 SNone SNone] [] (TNamed 0) default_opts
   [K (bs "{}") None (WOk (XL [XZ]));
    K (bs "null") None (WOk (XL [XZ]));
    K (bs "{""float64"":""0""}") None (WOk (XL [(XF 0 0)]));
    K (bs "{""float64"":""123""}") None (WOk (XL [(XF 123 0)]));
    K (bs "{""float64"":""1.000000003""}") None (WOk (XL [(XF 1000000003 (-9))]));
    K (bs "{""float64"":""9007199254740991""}") None (WOk (XL [(XF 9007199254740991 0)]));
    K (bs "{""float64"":""-9007199254740991""}") None (WOk (XL [(XF (-9007199254740991) 0)]));
    K (bs "{""float64"":""3.141592653589793238462643383279502884197""}") None (WOk (XL [(XF 3141592653589793238462643383279502884197 (-39))]));
    K (bs "{""float64"":""-3.141592653589793238462643383279502884197""}") None (WOk (XL [(XF (-3141592653589793238462643383279502884197) (-39))]));
    K (bs "{""float64"":""3.4028235e38""}") None (WOk (XL [(XF 34028235 31)]));
    K (bs "{""float64"":""1.7976931348623157e308""}") None (WOk (XL [(XF 17976931348623157 292)]));
    K (bs "{""float64"":""1.7976931348623157e-308""}") None (WOk (XL [(XF 17976931348623157 (-324))]));
    K (bs "{""float64"":""1.4e-45""}") None (WOk (XL [(XF 14 (-46))]));
    K (bs "{""float64"":""-1.7976931348623157e308""}") None (WOk (XL [(XF (-17976931348623157) 292)]));
    K (bs "{""float64"":""3.4e38""}") None (WOk (XL [(XF 34 37)]));
    K (bs "{""float64"":""-3.4e38""}") None (WOk (XL [(XF (-34) 37)]));
    K (bs "{""float64"":""6.022e23""}") None (WOk (XL [(XF 6022 20)]));
    K (bs "{""float64"":""1e309""}") None (WErr (Some 11) EParse)].
Example g91_ideal : spec_group g91 = Some [].
Proof. vm_compute. reflexivity. Qed.
Example g91_conforms : (run_group false g91, run_group true g91) = ([], []).
Proof. vm_compute. reflexivity. Qed.
(* TestDecodePointerInt *)
Definition g92 : group :=
  G [] [] (TPtr (TInt (NK true WWord))) default_opts
   [K (bs "42") None (WOk (XP (XI 42)));
    K (bs "null") None (WOk XNil);
    K (bs "1.1") None (WErr (Some 0) EUnexpected);
    K (bs "[]") None (WErr (Some 0) EUnexpected);
    K (bs "{}") None (WErr (Some 0) EUnexpected);
    K (bs """text""") None (WErr (Some 0) EUnexpected);
    K (bs "false") None (WErr (Some 0) EUnexpected);
    K (bs "true") None (WErr (Some 0) EUnexpected)].
Example g92_ideal : spec_group g92 = Some [].
Proof. vm_compute. reflexivity. Qed.
Example g92_conforms : (run_group false g92, run_group true g92) = ([], []).
Proof. vm_compute. reflexivity. Qed.
(* TestDecodePointerBool *)
Definition g93 : group :=
  G [] [] (TPtr (TBool)) default_opts
   [K (bs "true") None (WOk (XP (XB true)));
    K (bs "false") None (WOk (XP (XB false)));
    K (bs "null") None (WOk XNil);
    K (bs "1.1") None (WErr (Some 0) EUnexpected);
    K (bs "[]") None (WErr (Some 0) EUnexpected);
    K (bs "{}") None (WErr (Some 0) EUnexpected);
    K (bs """text""") None (WErr (Some 0) EUnexpected);
    K (bs "42") None (WErr (Some 0) EUnexpected)].
Example g93_ideal : spec_group g93 = Some [].
Proof. vm_compute. reflexivity. Qed.
Example g93_conforms : (run_group false g93, run_group true g93) = ([], []).
Proof. vm_compute. reflexivity. Qed.
(* TestDecodePointerFloat64 *)
Definition g94 : group :=
  G [] [] (TPtr (TFloat B64)) default_opts
   [K (bs "42") None (WOk (XP (XF 42 0)));
    K (bs "3.1415") None (WOk (XP (XF 31415 (-4))));
    K (bs "null") None (WOk XNil);
    K (bs "[]") None (WErr (Some 0) EUnexpected);
    K (bs "{}") None (WErr (Some 0) EUnexpected);
    K (bs """text""") None (WErr (Some 0) EUnexpected);
    K (bs "false") None (WErr (Some 0) EUnexpected);
    K (bs "true") None (WErr (Some 0) EUnexpected)].
Example g94_ideal : spec_group g94 = Some [].
Proof. vm_compute. reflexivity. Qed.
Example g94_conforms : (run_group false g94, run_group true g94) = ([], []).
Proof. vm_compute. reflexivity. Qed.
(* TestDecodePointerString *)
Definition g95 : group :=
  G [] [] (TPtr (TStr)) default_opts
   [K (bs """text""") None (WOk (XP (XS (bs "text"))));
    K (bs """""") None (WOk (XP (XS [])));
    K (bs "null") None (WOk XNil);
    K (bs "1.1") None (WErr (Some 0) EUnexpected);
    K (bs "[]") None (WErr (Some 0) EUnexpected);
    K (bs "{}") None (WErr (Some 0) EUnexpected);
    K (bs "42") None (WErr (Some 0) EUnexpected);
    K (bs "false") None (WErr (Some 0) EUnexpected);
    K (bs "true") None (WErr (Some 0) EUnexpected)].
Example g95_ideal : spec_group g95 = Some [].
Proof. vm_compute. reflexivity. Qed.
Example g95_conforms : (run_group false g95, run_group true g95) = ([], []).
Proof. vm_compute. reflexivity. Qed.
(* TestDecodePointerSlice *)
Definition g96 : group :=
  G [] [] (TPtr (TSlice (TInt (NK true WWord)))) default_opts
   [K (bs "[1]") None (WOk (XP (XL [(XI 1)])));
    K (bs "[]") None (WOk (XP (XL [])));
    K (bs "null") None (WOk XNil);
    K (bs "1.1") None (WErr (Some 0) EUnexpected);
    K (bs "{}") None (WErr (Some 0) EUnexpected);
    K (bs "42") None (WErr (Some 0) EUnexpected);
    K (bs """text""") None (WErr (Some 0) EUnexpected);
    K (bs "false") None (WErr (Some 0) EUnexpected);
    K (bs "true") None (WErr (Some 0) EUnexpected)].
Example g96_ideal : spec_group g96 = Some [].
Proof. vm_compute. reflexivity. Qed.
Example g96_conforms : (run_group false g96, run_group true g96) = ([], []).
Proof. vm_compute. reflexivity. Qed.
(* TestDecodePointerStruct *)
Definition g97 : group :=
  G [Decl (TStruct 0 32 [(Fld (bs "Foo") (bs "foo") 0, TStr); (Fld (bs "Bar") (bs "bar") 16, TAny)]) 32 SNone SNone] [] (TPtr (TNamed 0)) default_opts
   [K [123; 34; 102; 111; 111; 34; 58; 34; 226; 132; 162; 34; 44; 34; 98; 97; 114; 34; 58; 91; 49; 44; 116; 114; 117; 101; 93; 125] None (WOk (XP (XL [(XS [226; 132; 162]); (XL [(XF 1 0); (XB true)])])));
    K (bs "{""bar"":[1,true]}") None (WOk (XP (XL [XZ; (XL [(XF 1 0); (XB true)])])));
    K (bs "{}") None (WOk (XP (XL [XZ; XZ])));
    K (bs "null") None (WOk XNil);
    K (bs "1.1") None (WErr (Some 0) EUnexpected);
    K (bs "[]") None (WErr (Some 0) EUnexpected);
    K (bs "42") None (WErr (Some 0) EUnexpected);
    K (bs """text""") None (WErr (Some 0) EUnexpected);
    K (bs "false") None (WErr (Some 0) EUnexpected);
    K (bs "true") None (WErr (Some 0) EUnexpected)].
Example g97_ideal : spec_group g97 = Some [].
Proof. vm_compute. reflexivity. Qed.
Example g97_conforms : (run_group false g97, run_group true g97) = ([], []).
Proof. vm_compute. reflexivity. Qed.
(* TestDecodePointerAny *)
Definition g98 : group :=
  G [] [] (TPtr (TAny)) default_opts
   [K (bs "[1]") None (WOk (XP (XL [(XF 1 0)])));
    K (bs """text""") None (WOk (XP (XS (bs "text"))));
    K (bs "[1]") None (WOk (XP (XL [(XF 1 0)])));
    K (bs "{""foo"":1}") None (WOk (XP (XM [((XS (bs "foo")), (XF 1 0))])))].
Example g98_ideal : spec_group g98 = Some [].
Proof. vm_compute. reflexivity. Qed.
Example g98_conforms : (run_group false g98, run_group true g98) = ([], []).
Proof. vm_compute. reflexivity. Qed.
(* TestDecodePointer3DInt *)
Definition g99 : group :=
  G [] [] (TPtr (TPtr (TPtr (TInt (NK true WWord))))) default_opts
   [K (bs "42") None (WOk (XP (XP (XP (XI 42)))));
    K (bs "1.1") None (WErr (Some 0) EUnexpected);
    K (bs "[]") None (WErr (Some 0) EUnexpected);
    K (bs """text""") None (WErr (Some 0) EUnexpected)].
Example g99_ideal : spec_group g99 = Some [].
Proof. vm_compute. reflexivity. Qed.
Example g99_conforms : (run_group false g99, run_group true g99) = ([], []).
Proof. vm_compute. reflexivity. Qed.
(* TestDecodeStructSlice *)
Definition g100 : group :=
  G [Decl (TStruct 0 24 [(Fld (bs "Foo") (bs "foo") 0, TInt (NK true WWord)); (Fld (bs "Bar") (bs "bar") 8, TStr)]) 24 SNone SNone] [] (TSlice (TNamed 0)) default_opts
   [K (bs "[]") None (WOk (XL []));
    K (bs "[{""foo"":42,""bar"":""bazz""}]") None (WOk (XL [(XL [(XI 42); (XS (bs "bazz"))])]));
    K (bs "[
			{""foo"": 1, ""bar"": ""a""},
			{""foo"": 2, ""bar"": ""ab""},
			{""foo"": 3, ""bar"": ""abc""},
			{""foo"": 4, ""bar"": ""abcd""},
			{""foo"": 5, ""bar"": ""abcde""},
			{""foo"": 6, ""bar"": ""abcdef""},
			{""foo"": 7, ""bar"": ""abcdefg""}
		]") None (WOk (XL [(XL [(XI 1); (XS (bs "a"))]); (XL [(XI 2); (XS (bs "ab"))]); (XL [(XI 3); (XS (bs "abc"))]); (XL [(XI 4); (XS (bs "abcd"))]); (XL [(XI 5); (XS (bs "abcde"))]); (XL [(XI 6); (XS (bs "abcdef"))]); (XL [(XI 7); (XS (bs "abcdefg"))])]));
    K (bs "[
			{ },
			null,
			{""faz"":42,""baz"":""bazz""}
		]") None (WOk (XL [(XL [XZ; XZ]); (XL [XZ; XZ]); (XL [XZ; XZ])]));
    K (bs "[
			{""bar"":""abc"",""foo"":1234},
			{""FOO"":42,""BAR"":""bazz""},
			{""Foo"":42,""Bar"":""bazz""},
			{""foo"":null,""bar"":null},
			{""bar"":""bar""},
			{""foo"":12345},
			{""bar"":""bar"",""unknown"":42,""foo"":102},
			{""unknown"":42, ""unknown2"": ""bad""},
			{},
			{""faz"":42,""baz"":""bazz""}
		]") None (WOk (XL [(XL [(XI 1234); (XS (bs "abc"))]); (XL [(XI 42); (XS (bs "bazz"))]); (XL [(XI 42); (XS (bs "bazz"))]); (XL [(XI 0); (XS [])]); (XL [XZ; (XS (bs "bar"))]); (XL [(XI 12345); XZ]); (XL [(XI 102); (XS (bs "bar"))]); (XL [XZ; XZ]); (XL [XZ; XZ]); (XL [XZ; XZ])]));
    K (bs "1") None (WErr (Some 0) EUnexpected);
    K (bs """text""") None (WErr (Some 0) EUnexpected)].
Example g100_ideal : spec_group g100 = Some [].
Proof. vm_compute. reflexivity. Qed.
Example g100_conforms : (run_group false g100, run_group true g100) = ([], []).
Proof. vm_compute. reflexivity. Qed.
(* TestDecodeMapStringToString *)
Definition g101 : group :=
  G [Decl (TMap (TStr) (TStr)) 8 SNone SNone] [] (TNamed 0) default_opts
   [K (bs "{}") None (WOk (XM []));
    K (bs "{""foo"":""42"",""bar"":""bazz""}") None (WOk (XM [((XS (bs "foo")), (XS (bs "42"))); ((XS (bs "bar")), (XS (bs "bazz")))]));
    K (bs "{"""":""""}") None (WOk (XM [((XS []), (XS []))]));
    K (bs "{"""":"""", """":""""}") None (WOk (XM [((XS []), (XS []))]));
    K (bs "{"""":null}") None (WOk (XM [((XS []), (XS []))]));
    K (bs "{""a"":""1"",""a"":""2""}") None (WOk (XM [((XS (bs "a")), (XS (bs "2")))]));
    K (bs "{"""":""1"", """":""12"", """":""123""}") None (WOk (XM [((XS []), (XS (bs "123")))]));
    K (bs "{
			""foo"": ""1"", ""bar"": ""a"", ""baz"": ""2"", ""muzz"": """",
			""longer_key"": ""longer test text""
		}") None (WOk (XM [((XS (bs "foo")), (XS (bs "1"))); ((XS (bs "bar")), (XS (bs "a"))); ((XS (bs "baz")), (XS (bs "2"))); ((XS (bs "muzz")), (XS [])); ((XS (bs "longer_key")), (XS (bs "longer test text")))]));
    K (bs "{""\""key\"""":""\""value\""\t\u0042""}") None (WOk (XM [((XS (bs """key""")), (XS (bs """value""	B")))]));
    K (bs "1") None (WErr (Some 0) EUnexpected);
    K (bs """text""") None (WErr (Some 0) EUnexpected);
    K (bs "[]") None (WErr (Some 0) EUnexpected)].
Example g101_ideal : spec_group g101 = Some [].
Proof. vm_compute. reflexivity. Qed.
Example g101_conforms : (run_group false g101, run_group true g101) = ([], []).
Proof. vm_compute. reflexivity. Qed.
(* TestDecodeMapIntToString *)
Definition g102 : group :=
  G [Decl (TMap (TInt (NK true WWord)) (TInt (NK true WWord))) 8 SNone SNone] [] (TNamed 0) default_opts
   [K (bs "{}") None (WOk (XM []));
    K (bs "null") None (WOk XNil);
    K (bs "{""0"":0, ""42"":42, ""-123456789"":123456789}") None (WOk (XM [((XI 0), (XI 0)); ((XI 42), (XI 42)); ((XI (-123456789)), (XI 123456789))]));
    K (bs "{""1"": 42}") (Some (XM [((XI 1), (XI 10)); ((XI 2), (XI 20))])) (WOk (XM [((XI 1), (XI 42)); ((XI 2), (XI 20))]));
    K (bs "{""2"": 42}") (Some (XM [((XI 1), (XI 10)); ((XI 2), (XI 20))])) (WOk (XM [((XI 1), (XI 10)); ((XI 2), (XI 42))]));
    K (bs "{""2"": 42, ""1"": 42, ""3"": 42}") (Some (XM [((XI 1), (XI 10)); ((XI 2), (XI 20))])) (WOk (XM [((XI 1), (XI 42)); ((XI 2), (XI 42)); ((XI 3), (XI 42))]));
    K (bs "{""9223372036854775808"":0}") None (WErr (Some 1) EUnexpected);
    K (bs "{""-9223372036854775809"":0}") None (WErr (Some 1) EUnexpected);
    K (bs "{""3.14"":0}") None (WErr (Some 1) EUnexpected);
    K (bs "{""3e2"":0}") None (WErr (Some 1) EUnexpected);
    K (bs "1") None (WErr (Some 0) EUnexpected);
    K (bs """text""") None (WErr (Some 0) EUnexpected);
    K (bs "[]") None (WErr (Some 0) EUnexpected)].
Example g102_ideal : spec_group g102 = Some [].
Proof. vm_compute. reflexivity. Qed.
Example g102_conforms : (run_group false g102, run_group true g102) = ([], []).
Proof. vm_compute. reflexivity. Qed.
(* TestDecodeMapInt8ToString *)
Definition g103 : group :=
  G [Decl (TMap (TInt (NK true W8)) (TInt (NK true WWord))) 8 SNone SNone] [] (TNamed 0) default_opts
   [K (bs "{}") None (WOk (XM []));
    K (bs "null") None (WOk XNil);
    K (bs "{""0"":0, ""-128"":-128, ""127"":127}") None (WOk (XM [((XI 0), (XI 0)); ((XI (-128)), (XI (-128))); ((XI 127), (XI 127))]));
    K (bs "{""1"": 42}") (Some (XM [((XI 1), (XI 10)); ((XI 2), (XI 20))])) (WOk (XM [((XI 1), (XI 42)); ((XI 2), (XI 20))]));
    K (bs "{""2"": 42}") (Some (XM [((XI 1), (XI 10)); ((XI 2), (XI 20))])) (WOk (XM [((XI 1), (XI 10)); ((XI 2), (XI 42))]));
    K (bs "{""2"": 42, ""1"": 42, ""3"": 42}") (Some (XM [((XI 1), (XI 10)); ((XI 2), (XI 20))])) (WOk (XM [((XI 1), (XI 42)); ((XI 2), (XI 42)); ((XI 3), (XI 42))]));
    K (bs "{""128"":0}") None (WErr (Some 1) EUnexpected);
    K (bs "{""-129"":0}") None (WErr (Some 1) EUnexpected);
    K (bs "{""3.14"":0}") None (WErr (Some 1) EUnexpected);
    K (bs "{""3e2"":0}") None (WErr (Some 1) EUnexpected);
    K (bs "1") None (WErr (Some 0) EUnexpected);
    K (bs """text""") None (WErr (Some 0) EUnexpected);
    K (bs "[]") None (WErr (Some 0) EUnexpected)].
Example g103_ideal : spec_group g103 = Some [].
Proof. vm_compute. reflexivity. Qed.
Example g103_conforms : (run_group false g103, run_group true g103) = ([], []).
Proof. vm_compute. reflexivity. Qed.
(* TestDecodeMapInt16ToString *)
Definition g104 : group :=
  G [Decl (TMap (TInt (NK true W16)) (TInt (NK true WWord))) 8 SNone SNone] [] (TNamed 0) default_opts
   [K (bs "{}") None (WOk (XM []));
    K (bs "null") None (WOk XNil);
    K (bs "{""0"":0, ""-32768"":-32768, ""32767"":32767}") None (WOk (XM [((XI 0), (XI 0)); ((XI (-32768)), (XI (-32768))); ((XI 32767), (XI 32767))]));
    K (bs "{""1"": 42}") (Some (XM [((XI 1), (XI 10)); ((XI 2), (XI 20))])) (WOk (XM [((XI 1), (XI 42)); ((XI 2), (XI 20))]));
    K (bs "{""2"": 42}") (Some (XM [((XI 1), (XI 10)); ((XI 2), (XI 20))])) (WOk (XM [((XI 1), (XI 10)); ((XI 2), (XI 42))]));
    K (bs "{""2"": 42, ""1"": 42, ""3"": 42}") (Some (XM [((XI 1), (XI 10)); ((XI 2), (XI 20))])) (WOk (XM [((XI 1), (XI 42)); ((XI 2), (XI 42)); ((XI 3), (XI 42))]));
    K (bs "{""32768"":0}") None (WErr (Some 1) EUnexpected);
    K (bs "{""-32769"":0}") None (WErr (Some 1) EUnexpected);
    K (bs "{""3.14"":0}") None (WErr (Some 1) EUnexpected);
    K (bs "{""3e2"":0}") None (WErr (Some 1) EUnexpected);
    K (bs "1") None (WErr (Some 0) EUnexpected);
    K (bs """text""") None (WErr (Some 0) EUnexpected);
    K (bs "[]") None (WErr (Some 0) EUnexpected)].
Example g104_ideal : spec_group g104 = Some [].
Proof. vm_compute. reflexivity. Qed.
Example g104_conforms : (run_group false g104, run_group true g104) = ([], []).
Proof. vm_compute. reflexivity. Qed.
(* TestDecodeMapInt32ToString *)
Definition g105 : group :=
  G [Decl (TMap (TInt (NK true W32)) (TInt (NK true WWord))) 8 SNone SNone] [] (TNamed 0) default_opts
   [K (bs "{}") None (WOk (XM []));
    K (bs "null") None (WOk XNil);
    K (bs "{""0"":0,
		""-2147483648"":-2147483648, ""2147483647"":2147483647}") None (WOk (XM [((XI 0), (XI 0)); ((XI (-2147483648)), (XI (-2147483648))); ((XI 2147483647), (XI 2147483647))]));
    K (bs "{""1"": 42}") (Some (XM [((XI 1), (XI 10)); ((XI 2), (XI 20))])) (WOk (XM [((XI 1), (XI 42)); ((XI 2), (XI 20))]));
    K (bs "{""2"": 42}") (Some (XM [((XI 1), (XI 10)); ((XI 2), (XI 20))])) (WOk (XM [((XI 1), (XI 10)); ((XI 2), (XI 42))]));
    K (bs "{""2"": 42, ""1"": 42, ""3"": 42}") (Some (XM [((XI 1), (XI 10)); ((XI 2), (XI 20))])) (WOk (XM [((XI 1), (XI 42)); ((XI 2), (XI 42)); ((XI 3), (XI 42))]));
    K (bs "{""2147483648"":0}") None (WErr (Some 1) EUnexpected);
    K (bs "{""-2147483649"":0}") None (WErr (Some 1) EUnexpected);
    K (bs "{""3.14"":0}") None (WErr (Some 1) EUnexpected);
    K (bs "{""3e2"":0}") None (WErr (Some 1) EUnexpected);
    K (bs "1") None (WErr (Some 0) EUnexpected);
    K (bs """text""") None (WErr (Some 0) EUnexpected);
    K (bs "[]") None (WErr (Some 0) EUnexpected)].
Example g105_ideal : spec_group g105 = Some [].
Proof. vm_compute. reflexivity. Qed.
Example g105_conforms : (run_group false g105, run_group true g105) = ([], []).
Proof. vm_compute. reflexivity. Qed.
(* TestDecodeMapInt64ToString *)
Definition g106 : group :=
  G [Decl (TMap (TInt (NK true W64)) (TInt (NK true WWord))) 8 SNone SNone] [] (TNamed 0) default_opts
   [K (bs "{}") None (WOk (XM []));
    K (bs "null") None (WOk XNil);
    K (bs "{""0"":0,
		""-9223372036854775808"":-9223372036854775808,
		""9223372036854775807"":9223372036854775807}") None (WOk (XM [((XI 0), (XI 0)); ((XI (-9223372036854775808)), (XI (-9223372036854775808))); ((XI 9223372036854775807), (XI 9223372036854775807))]));
    K (bs "{""1"": 42}") (Some (XM [((XI 1), (XI 10)); ((XI 2), (XI 20))])) (WOk (XM [((XI 1), (XI 42)); ((XI 2), (XI 20))]));
    K (bs "{""2"": 42}") (Some (XM [((XI 1), (XI 10)); ((XI 2), (XI 20))])) (WOk (XM [((XI 1), (XI 10)); ((XI 2), (XI 42))]));
    K (bs "{""2"": 42, ""1"": 42, ""3"": 42}") (Some (XM [((XI 1), (XI 10)); ((XI 2), (XI 20))])) (WOk (XM [((XI 1), (XI 42)); ((XI 2), (XI 42)); ((XI 3), (XI 42))]));
    K (bs "{""9223372036854775808"":0}") None (WErr (Some 1) EUnexpected);
    K (bs "{""-9223372036854775809"":0}") None (WErr (Some 1) EUnexpected);
    K (bs "{""3.14"":0}") None (WErr (Some 1) EUnexpected);
    K (bs "{""3e2"":0}") None (WErr (Some 1) EUnexpected);
    K (bs "1") None (WErr (Some 0) EUnexpected);
    K (bs """text""") None (WErr (Some 0) EUnexpected);
    K (bs "[]") None (WErr (Some 0) EUnexpected)].
Example g106_ideal : spec_group g106 = Some [].
Proof. vm_compute. reflexivity. Qed.
Example g106_conforms : (run_group false g106, run_group true g106) = ([], []).
Proof. vm_compute. reflexivity. Qed.
(* TestDecodeMapUintToString *)
Definition g107 : group :=
  G [Decl (TMap (TInt (NK false WWord)) (TInt (NK true WWord))) 8 SNone SNone] [] (TNamed 0) default_opts
   [K (bs "{}") None (WOk (XM []));
    K (bs "null") None (WOk XNil);
    K (bs "{""0"":0, ""42"":42, ""18446744073709551615"":1}") None (WOk (XM [((XI 0), (XI 0)); ((XI 42), (XI 42)); ((XI 18446744073709551615), (XI 1))]));
    K (bs "{""1"": 42}") (Some (XM [((XI 1), (XI 10)); ((XI 2), (XI 20))])) (WOk (XM [((XI 1), (XI 42)); ((XI 2), (XI 20))]));
    K (bs "{""2"": 42}") (Some (XM [((XI 1), (XI 10)); ((XI 2), (XI 20))])) (WOk (XM [((XI 1), (XI 10)); ((XI 2), (XI 42))]));
    K (bs "{""2"": 42, ""1"": 42, ""3"": 42}") (Some (XM [((XI 1), (XI 10)); ((XI 2), (XI 20))])) (WOk (XM [((XI 1), (XI 42)); ((XI 2), (XI 42)); ((XI 3), (XI 42))]));
    K (bs "{""18446744073709551616"":0}") None (WErr (Some 1) EUnexpected);
    K (bs "{""-1"":0}") None (WErr (Some 1) EUnexpected);
    K (bs "{""3.14"":0}") None (WErr (Some 1) EUnexpected);
    K (bs "{""3e2"":0}") None (WErr (Some 1) EUnexpected);
    K (bs "1") None (WErr (Some 0) EUnexpected);
    K (bs """text""") None (WErr (Some 0) EUnexpected);
    K (bs "[]") None (WErr (Some 0) EUnexpected)].
Example g107_ideal : spec_group g107 = Some [].
Proof. vm_compute. reflexivity. Qed.
Example g107_conforms : (run_group false g107, run_group true g107) = ([], []).
Proof. vm_compute. reflexivity. Qed.
(* TestDecodeMapUint8ToString *)
Definition g108 : group :=
  G [Decl (TMap (TInt (NK false W8)) (TInt (NK true WWord))) 8 SNone SNone] [] (TNamed 0) default_opts
   [K (bs "{}") None (WOk (XM []));
    K (bs "null") None (WOk XNil);
    K (bs "{""0"":0, ""42"":42, ""255"":1}") None (WOk (XM [((XI 0), (XI 0)); ((XI 42), (XI 42)); ((XI 255), (XI 1))]));
    K (bs "{""1"": 42}") (Some (XM [((XI 1), (XI 10)); ((XI 2), (XI 20))])) (WOk (XM [((XI 1), (XI 42)); ((XI 2), (XI 20))]));
    K (bs "{""2"": 42}") (Some (XM [((XI 1), (XI 10)); ((XI 2), (XI 20))])) (WOk (XM [((XI 1), (XI 10)); ((XI 2), (XI 42))]));
    K (bs "{""2"": 42, ""1"": 42, ""3"": 42}") (Some (XM [((XI 1), (XI 10)); ((XI 2), (XI 20))])) (WOk (XM [((XI 1), (XI 42)); ((XI 2), (XI 42)); ((XI 3), (XI 42))]));
    K (bs "{""256"":0}") None (WErr (Some 1) EUnexpected);
    K (bs "{""-1"":0}") None (WErr (Some 1) EUnexpected);
    K (bs "{""3.14"":0}") None (WErr (Some 1) EUnexpected);
    K (bs "{""3e2"":0}") None (WErr (Some 1) EUnexpected);
    K (bs "1") None (WErr (Some 0) EUnexpected);
    K (bs """text""") None (WErr (Some 0) EUnexpected);
    K (bs "[]") None (WErr (Some 0) EUnexpected)].
Example g108_ideal : spec_group g108 = Some [].
Proof. vm_compute. reflexivity. Qed.
Example g108_conforms : (run_group false g108, run_group true g108) = ([], []).
Proof. vm_compute. reflexivity. Qed.
(* TestDecodeMapUint16ToString *)
Definition g109 : group :=
  G [Decl (TMap (TInt (NK false W16)) (TInt (NK true WWord))) 8 SNone SNone] [] (TNamed 0) default_opts
   [K (bs "{}") None (WOk (XM []));
    K (bs "null") None (WOk XNil);
    K (bs "{""0"":0, ""42"":42, ""65535"":1}") None (WOk (XM [((XI 0), (XI 0)); ((XI 42), (XI 42)); ((XI 65535), (XI 1))]));
    K (bs "{""1"": 42}") (Some (XM [((XI 1), (XI 10)); ((XI 2), (XI 20))])) (WOk (XM [((XI 1), (XI 42)); ((XI 2), (XI 20))]));
    K (bs "{""2"": 42}") (Some (XM [((XI 1), (XI 10)); ((XI 2), (XI 20))])) (WOk (XM [((XI 1), (XI 10)); ((XI 2), (XI 42))]));
    K (bs "{""2"": 42, ""1"": 42, ""3"": 42}") (Some (XM [((XI 1), (XI 10)); ((XI 2), (XI 20))])) (WOk (XM [((XI 1), (XI 42)); ((XI 2), (XI 42)); ((XI 3), (XI 42))]));
    K (bs "{""65536"":0}") None (WErr (Some 1) EUnexpected);
    K (bs "{""-1"":0}") None (WErr (Some 1) EUnexpected);
    K (bs "{""3.14"":0}") None (WErr (Some 1) EUnexpected);
    K (bs "{""3e2"":0}") None (WErr (Some 1) EUnexpected);
    K (bs "1") None (WErr (Some 0) EUnexpected);
    K (bs """text""") None (WErr (Some 0) EUnexpected);
    K (bs "[]") None (WErr (Some 0) EUnexpected)].
Example g109_ideal : spec_group g109 = Some [].
Proof. vm_compute. reflexivity. Qed.
Example g109_conforms : (run_group false g109, run_group true g109) = ([], []).
Proof. vm_compute. reflexivity. Qed.
(* TestDecodeMapUint32ToString *)
Definition g110 : group :=
  G [Decl (TMap (TInt (NK false W32)) (TInt (NK true WWord))) 8 SNone SNone] [] (TNamed 0) default_opts
   [K (bs "{}") None (WOk (XM []));
    K (bs "null") None (WOk XNil);
    K (bs "{""0"":0, ""42"":42, ""4294967295"":1}") None (WOk (XM [((XI 0), (XI 0)); ((XI 42), (XI 42)); ((XI 4294967295), (XI 1))]));
    K (bs "{""1"": 42}") (Some (XM [((XI 1), (XI 10)); ((XI 2), (XI 20))])) (WOk (XM [((XI 1), (XI 42)); ((XI 2), (XI 20))]));
    K (bs "{""2"": 42}") (Some (XM [((XI 1), (XI 10)); ((XI 2), (XI 20))])) (WOk (XM [((XI 1), (XI 10)); ((XI 2), (XI 42))]));
    K (bs "{""2"": 42, ""1"": 42, ""3"": 42}") (Some (XM [((XI 1), (XI 10)); ((XI 2), (XI 20))])) (WOk (XM [((XI 1), (XI 42)); ((XI 2), (XI 42)); ((XI 3), (XI 42))]));
    K (bs "{""4294967296"":0}") None (WErr (Some 1) EUnexpected);
    K (bs "{""-1"":0}") None (WErr (Some 1) EUnexpected);
    K (bs "{""3.14"":0}") None (WErr (Some 1) EUnexpected);
    K (bs "{""3e2"":0}") None (WErr (Some 1) EUnexpected);
    K (bs "1") None (WErr (Some 0) EUnexpected);
    K (bs """text""") None (WErr (Some 0) EUnexpected);
    K (bs "[]") None (WErr (Some 0) EUnexpected)].
Example g110_ideal : spec_group g110 = Some [].
Proof. vm_compute. reflexivity. Qed.
Example g110_conforms : (run_group false g110, run_group true g110) = ([], []).
Proof. vm_compute. reflexivity. Qed.
(* TestDecodeMapUint64ToString *)
Definition g111 : group :=
  G [Decl (TMap (TInt (NK false W64)) (TInt (NK true WWord))) 8 SNone SNone] [] (TNamed 0) default_opts
   [K (bs "{}") None (WOk (XM []));
    K (bs "null") None (WOk XNil);
    K (bs "{""0"":0, ""42"":42, ""18446744073709551615"":1}") None (WOk (XM [((XI 0), (XI 0)); ((XI 42), (XI 42)); ((XI 18446744073709551615), (XI 1))]));
    K (bs "{""1"": 42}") (Some (XM [((XI 1), (XI 10)); ((XI 2), (XI 20))])) (WOk (XM [((XI 1), (XI 42)); ((XI 2), (XI 20))]));
    K (bs "{""2"": 42}") (Some (XM [((XI 1), (XI 10)); ((XI 2), (XI 20))])) (WOk (XM [((XI 1), (XI 10)); ((XI 2), (XI 42))]));
    K (bs "{""2"": 42, ""1"": 42, ""3"": 42}") (Some (XM [((XI 1), (XI 10)); ((XI 2), (XI 20))])) (WOk (XM [((XI 1), (XI 42)); ((XI 2), (XI 42)); ((XI 3), (XI 42))]));
    K (bs "{""18446744073709551616"":0}") None (WErr (Some 1) EUnexpected);
    K (bs "{""-1"":0}") None (WErr (Some 1) EUnexpected);
    K (bs "{""3.14"":0}") None (WErr (Some 1) EUnexpected);
    K (bs "{""3e2"":0}") None (WErr (Some 1) EUnexpected);
    K (bs "1") None (WErr (Some 0) EUnexpected);
    K (bs """text""") None (WErr (Some 0) EUnexpected);
    K (bs "[]") None (WErr (Some 0) EUnexpected)].
Example g111_ideal : spec_group g111 = Some [].
Proof. vm_compute. reflexivity. Qed.
Example g111_conforms : (run_group false g111, run_group true g111) = ([], []).
Proof. vm_compute. reflexivity. Qed.
(* TestDecodeMapStringToMapStringToString *)
Definition g112 : group :=
  G [Decl (TMap (TStr) (TNamed 1)) 8 SNone SNone; Decl (TMap (TStr) (TStr)) 8 SNone SNone] [] (TNamed 0) default_opts
   [K (bs "{}") None (WOk (XM []));
    K (bs "{
			""a"":{""a1"":""a1val"",""a2"":""a2val""},
			""b"":{""b1"":""b1val"",""b2"":""b2val""}
		}") None (WOk (XM [((XS (bs "a")), (XM [((XS (bs "a1")), (XS (bs "a1val"))); ((XS (bs "a2")), (XS (bs "a2val")))])); ((XS (bs "b")), (XM [((XS (bs "b1")), (XS (bs "b1val"))); ((XS (bs "b2")), (XS (bs "b2val")))]))]));
    K (bs "{"""":{"""":""""}}") None (WOk (XM [((XS []), (XM [((XS []), (XS []))]))]));
    K (bs "{"""":{"""":"""", """":""""}, """":{"""":"""", """":""""}}") None (WOk (XM [((XS []), (XM [((XS []), (XS []))]))]));
    K (bs "{""n"":null,""x"":{""x"":null}}") None (WOk (XM [((XS (bs "n")), XNil); ((XS (bs "x")), (XM [((XS (bs "x")), (XS []))]))]));
    K (bs "{""a"":{""foo"":""bar""},""a"":{""baz"":""faz""}}") None (WOk (XM [((XS (bs "a")), (XM [((XS (bs "baz")), (XS (bs "faz")))]))]));
    K (bs "{"""":{""a"":""b""}, """":{""c"":""d""}, """":{""e"":""f""}}") None (WOk (XM [((XS []), (XM [((XS (bs "e")), (XS (bs "f")))]))]));
    K (bs "{
			"""":{},
			""first_key"":{""f1"":""first1_value"",""f2"":""first2_value""},
			""second_key"":null
		}") None (WOk (XM [((XS []), (XM [])); ((XS (bs "first_key")), (XM [((XS (bs "f1")), (XS (bs "first1_value"))); ((XS (bs "f2")), (XS (bs "first2_value")))])); ((XS (bs "second_key")), XNil)]));
    K (bs "{"" \b "" : {"" \"" "":"" \u30C4 ""} }") None (WOk (XM [((XS [32; 8; 32]), (XM [((XS (bs " "" ")), (XS [32; 227; 131; 132; 32]))]))]));
    K (bs "{""a"": {}}") (Some (XM [((XS (bs "a")), (XM [((XS (bs "a1")), (XS (bs "a1_b"))); ((XS (bs "a2")), (XS (bs "a2_v")))])); ((XS (bs "b")), (XM [((XS (bs "b1")), (XS (bs "b1_v")))]))])) (WOk (XM [((XS (bs "a")), (XM [])); ((XS (bs "b")), (XM [((XS (bs "b1")), (XS (bs "b1_v")))]))]));
    K (bs "{""a"": {""a2"":""NEWVAL""}}") (Some (XM [((XS (bs "a")), (XM [((XS (bs "a1")), (XS (bs "a1_b"))); ((XS (bs "a2")), (XS (bs "a2_v")))])); ((XS (bs "b")), (XM [((XS (bs "b1")), (XS (bs "b1_v")))]))])) (WOk (XM [((XS (bs "a")), (XM [((XS (bs "a2")), (XS (bs "NEWVAL")))])); ((XS (bs "b")), (XM [((XS (bs "b1")), (XS (bs "b1_v")))]))]));
    K (bs "{""a"": {""a2"":""NEWVAL1"",""a1"":""NEWVAL2""}, ""b"": {""b1"": ""NEWVAL3"", ""bNEW"": ""NV3""} }") (Some (XM [((XS (bs "a")), (XM [((XS (bs "a1")), (XS (bs "a1_b"))); ((XS (bs "a2")), (XS (bs "a2_v")))])); ((XS (bs "b")), (XM [((XS (bs "b1")), (XS (bs "b1_v")))]))])) (WOk (XM [((XS (bs "a")), (XM [((XS (bs "a1")), (XS (bs "NEWVAL2"))); ((XS (bs "a2")), (XS (bs "NEWVAL1")))])); ((XS (bs "b")), (XM [((XS (bs "b1")), (XS (bs "NEWVAL3"))); ((XS (bs "bNEW")), (XS (bs "NV3")))]))]));
    K (bs "1") None (WErr (Some 0) EUnexpected);
    K (bs """text""") None (WErr (Some 0) EUnexpected);
    K (bs "[]") None (WErr (Some 0) EUnexpected);
    K (bs "{""foo"":""bar""}") None (WErr (Some 7) EUnexpected);
    K (bs "{""foo"":{""bar"":42}}") None (WErr (Some 14) EUnexpected)].
Example g112_ideal : spec_group g112 = Some [].
Proof. vm_compute. reflexivity. Qed.
Example g112_conforms : (run_group false g112, run_group true g112) = ([], []).
Proof. vm_compute. reflexivity. Qed.
(* TestDecodeMapStringToStruct *)
Definition g113 : group :=
  G [Decl (TMap (TStr) (TNamed 1)) 8 SNone SNone; Decl (TStruct 0 24 [(Fld (bs "Name") (bs "name") 0, TStr); (Fld (bs "ID") (bs "id") 16, TInt (NK true WWord))]) 24 SNone SNone] [] (TNamed 0) default_opts
   [K (bs "{}") None (WOk (XM []));
    K (bs "{""x"":{""name"":""first"",""id"":1}}") None (WOk (XM [((XS (bs "x")), (XL [(XS (bs "first")); (XI 1)]))]));
    K (bs "{""x"":{}}") None (WOk (XM [((XS (bs "x")), (XL [XZ; XZ]))]));
    K (bs "{"""":null}") None (WOk (XM [((XS []), (XL [XZ; XZ]))]));
    K (bs "{""\u30c4"":{}}") None (WOk (XM [((XS [227; 131; 132]), (XL [XZ; XZ]))]));
    K (bs "{
			""x"":{""name"":""first"",""id"":1},
			""y"":{""name"":""second"",""id"":2}
		}") None (WOk (XM [((XS (bs "x")), (XL [(XS (bs "first")); (XI 1)])); ((XS (bs "y")), (XL [(XS (bs "second")); (XI 2)]))]));
    K (bs "null") (Some (XM [((XS (bs "a")), (XL [(XS (bs "a1")); (XI 1)])); ((XS (bs "b")), (XL [(XS (bs "b1")); (XI 2)]))])) (WOk XNil);
    K (bs "{}") (Some (XM [((XS (bs "a")), (XL [(XS (bs "a1")); (XI 1)])); ((XS (bs "b")), (XL [(XS (bs "b1")); (XI 2)]))])) (WOk (XM [((XS (bs "a")), (XL [(XS (bs "a1")); (XI 1)])); ((XS (bs "b")), (XL [(XS (bs "b1")); (XI 2)]))]));
    K (bs "{""c"":{""id"":3, ""name"":""Bob""}}") (Some (XM [((XS (bs "a")), (XL [(XS (bs "a1")); (XI 1)])); ((XS (bs "b")), (XL [(XS (bs "b1")); (XI 2)]))])) (WOk (XM [((XS (bs "a")), (XL [(XS (bs "a1")); (XI 1)])); ((XS (bs "b")), (XL [(XS (bs "b1")); (XI 2)])); ((XS (bs "c")), (XL [(XS (bs "Bob")); (XI 3)]))]));
    K (bs "{""a"": {}}") (Some (XM [((XS (bs "a")), (XL [(XS (bs "a1")); (XI 1)])); ((XS (bs "b")), (XL [(XS (bs "b1")); (XI 2)]))])) (WOk (XM [((XS (bs "a")), (XL [XZ; XZ])); ((XS (bs "b")), (XL [(XS (bs "b1")); (XI 2)]))]));
    K (bs "{""a"": {""id"":42}}") (Some (XM [((XS (bs "a")), (XL [(XS (bs "a1")); (XI 1)])); ((XS (bs "b")), (XL [(XS (bs "b1")); (XI 2)]))])) (WOk (XM [((XS (bs "a")), (XL [XZ; (XI 42)])); ((XS (bs "b")), (XL [(XS (bs "b1")); (XI 2)]))]));
    K (bs "1") None (WErr (Some 0) EUnexpected);
    K (bs """text""") None (WErr (Some 0) EUnexpected);
    K (bs "[]") None (WErr (Some 0) EUnexpected);
    K (bs "{""x"":42}") None (WErr (Some 5) EUnexpected)].
Example g113_ideal : spec_group g113 = Some [].
Proof. vm_compute. reflexivity. Qed.
Example g113_conforms : (run_group false g113, run_group true g113) = ([], []).
Proof. vm_compute. reflexivity. Qed.
(* TestDecodeMapStringStruct512 *)
Definition g114 : group :=
  G [Decl (TMap (TStr) (TNamed 1)) 8 SNone SNone; Decl (TStruct 0 512 [(Fld (bs "Data") [] 0, TNamed 2)]) 512 SNone SNone; Decl (TArr 512 (TInt (NK false W8))) 512 SNone SNone] [] (TNamed 0) default_opts
   [K (bs "{}") None (WOk (XM []));
    K (bs "null") None (WOk XNil);
    K (bs "{""x"":{""data"":[1,2,3]}}") None (WOk (XM [((XS (bs "x")), (XL [(XL [(XI 1); (XI 2); (XI 3)])]))]));
    K (bs "{""x"":{}}") None (WOk (XM [((XS (bs "x")), (XL [XZ]))]));
    K (bs "{"""":null}") None (WOk (XM [((XS []), (XL [XZ]))]));
    K (bs "{""\u30c4"":{}}") None (WOk (XM [((XS [227; 131; 132]), (XL [XZ]))]));
    K (bs "{
			""x"":{""data"":[0,1,2]},
			""y"":{""data"":[3,4]}
		}") None (WOk (XM [((XS (bs "x")), (XL [(XL [(XI 0); (XI 1); (XI 2)])])); ((XS (bs "y")), (XL [(XL [(XI 3); (XI 4)])]))]));
    K (bs "null") (Some (XM [((XS (bs "a")), (XL [(XL [(XI 0)])])); ((XS (bs "b")), (XL [(XL [(XI 0)])]))])) (WOk XNil);
    K (bs "{}") (Some (XM [((XS (bs "a")), (XL [(XL [(XI 0)])])); ((XS (bs "b")), (XL [(XL [(XI 1)])]))])) (WOk (XM [((XS (bs "a")), (XL [(XL [(XI 0)])])); ((XS (bs "b")), (XL [(XL [(XI 1)])]))]));
    K (bs "{""c"":{""data"":[1]}}") (Some (XM [((XS (bs "a")), (XL [(XL [(XI 0)])])); ((XS (bs "b")), (XL [(XL [(XI 0)])]))])) (WOk (XM [((XS (bs "a")), (XL [(XL [(XI 0)])])); ((XS (bs "b")), (XL [(XL [(XI 0)])])); ((XS (bs "c")), (XL [(XL [(XI 1)])]))]));
    K (bs "{""a"": {}}") (Some (XM [((XS (bs "a")), (XL [(XL [(XI 0)])])); ((XS (bs "b")), (XL [(XL [(XI 1)])]))])) (WOk (XM [((XS (bs "a")), (XL [XZ])); ((XS (bs "b")), (XL [(XL [(XI 1)])]))]));
    K (bs "{""a"": {""data"":[9,9]}}") (Some (XM [((XS (bs "a")), (XL [(XL [(XI 0); (XI 1); (XI 2); (XI 3); (XI 4); (XI 5)])])); ((XS (bs "b")), (XL [(XL [(XI 1)])]))])) (WOk (XM [((XS (bs "a")), (XL [(XL [(XI 9); (XI 9)])])); ((XS (bs "b")), (XL [(XL [(XI 1)])]))]));
    K (bs "1") None (WErr (Some 0) EUnexpected);
    K (bs """text""") None (WErr (Some 0) EUnexpected);
    K (bs "[]") None (WErr (Some 0) EUnexpected);
    K (bs "{""x"":42}") None (WErr (Some 5) EUnexpected)].
Example g114_ideal : spec_group g114 = Some [].
Proof. vm_compute. reflexivity. Qed.
Example g114_conforms : (run_group false g114, run_group true g114) = ([], []).
Proof. vm_compute. reflexivity. Qed.
(* TestDecodeJSONUnmarshaler *)
Definition g115 : group :=
  G [Decl (TOther) 16 SSome SNone] [] (TNamed 0) default_opts
   [K (bs "123") None (WOk (XU (bs "123")));
    K (bs "3.14") None (WOk (XU (bs "3.14")));
    K (bs """okay""") None (WOk (XU (bs """okay""")));
    K (bs "true") None (WOk (XU (bs "true")));
    K (bs "false") None (WOk (XU (bs "false")));
    K (bs "null") None (WOk (XU (bs "null")));
    K (bs "[]") None (WOk (XU (bs "[]")));
    K (bs "[1,""okay"",true,{ }]") None (WOk (XU (bs "[1,""okay"",true,{ }]")));
    K (bs "{}") None (WOk (XU (bs "{}")));
    K (bs "{""foo"":{""bar"":""baz""}}") None (WOk (XU (bs "{""foo"":{""bar"":""baz""}}")))].
Example g115_ideal : spec_group g115 = Some [].
Proof. vm_compute. reflexivity. Qed.
Example g115_conforms : (run_group false g115, run_group true g115) = ([], []).
Proof. vm_compute. reflexivity. Qed.
(* TestDecodeTextUnmarshaler *)
Definition g116 : group :=
  G [Decl (TOther) 16 SNone SSome] [] (TNamed 0) default_opts
   [K (bs """text""") None (WOk (XU (bs "text")));
    K (bs """\""text\""""") None (WOk (XU (bs """text""")));
    K (bs "null") None (WOk (XU []));
    K (bs """""") None (WOk (XU []));
    K (bs "123") None (WErr (Some 0) EUnexpected);
    K (bs "3.14") None (WErr (Some 0) EUnexpected);
    K (bs "true") None (WErr (Some 0) EUnexpected);
    K (bs "false") None (WErr (Some 0) EUnexpected);
    K (bs "true") None (WErr (Some 0) EUnexpected);
    K (bs "[]") None (WErr (Some 0) EUnexpected);
    K (bs "[""foo""]") None (WErr (Some 0) EUnexpected);
    K (bs "{}") None (WErr (Some 0) EUnexpected);
    K (bs "{""foo"":""bar""}") None (WErr (Some 0) EUnexpected)].
Example g116_ideal : spec_group g116 = Some [].
Proof. vm_compute. reflexivity. Qed.
Example g116_conforms : (run_group false g116, run_group true g116) = ([], []).
Proof. vm_compute. reflexivity. Qed.
(* TestDecodeTextUnmarshalerMapKey *)
Definition g117 : group :=
  G [Decl (TOther) 16 SNone SSome] [] (TMap (TNamed 0) (TInt (NK true WWord))) default_opts
   [K (bs "{}") None (WOk (XM []));
    K (bs "null") None (WOk XNil);
    K (bs "{""text"":1}") None (WOk (XM [((XU (bs "text")), (XI 1))]));
    K (bs "{"""":2}") None (WOk (XM [((XU []), (XI 2))]));
    K (bs "{""\""escaped\tkey\"""":3}") None (WOk (XM [((XU (bs """escaped	key""")), (XI 3))]));
    K (bs "123") None (WErr (Some 0) EUnexpected);
    K (bs "3.14") None (WErr (Some 0) EUnexpected);
    K (bs "true") None (WErr (Some 0) EUnexpected);
    K (bs "false") None (WErr (Some 0) EUnexpected);
    K (bs "true") None (WErr (Some 0) EUnexpected);
    K (bs "[]") None (WErr (Some 0) EUnexpected);
    K (bs "[""foo""]") None (WErr (Some 0) EUnexpected);
    K (bs "{""foo"":""bar""}") None (WErr (Some 7) EUnexpected)].
Example g117_ideal : spec_group g117 = Some [].
Proof. vm_compute. reflexivity. Qed.
Example g117_conforms : (run_group false g117, run_group true g117) = ([], []).
Proof. vm_compute. reflexivity. Qed.
(* TestDecodeUnmarshalerFields *)
Definition g118 : group :=
  G [Decl (TStruct 0 72 [(Fld (bs "String") (bs "string") 0, TStr); (Fld (bs "JSON") (bs "json") 16, TNamed 1); (Fld (bs "Text") (bs "text") 32, TNamed 2); (Fld (bs "Tail") (bs "tail") 48, TSlice (TInt (NK true WWord)))]) 72 SNone SNone; Decl (TOther) 16 SSome SNone; Decl (TOther) 16 SNone SSome] [] (TNamed 0) default_opts
   [K (bs "{""string"":""a"",""json"":42,""text"":""foo"",""tail"":[1,2]}") None (WOk (XL [(XS (bs "a")); (XU (bs "42")); (XU (bs "foo")); (XL [(XI 1); (XI 2)])]));
    K (bs "{
		""string"":""b"",
		""json"":""\""text\"""",
		""text"":""\""text\"""",
		""tail"":[1,2]}") None (WOk (XL [(XS (bs "b")); (XU (bs """\""text\""""")); (XU (bs """text""")); (XL [(XI 1); (XI 2)])]));
    K (bs "{""string"":""c"",""json"":[1,2, 3],""text"":"""",""tail"":[1,2]}") None (WOk (XL [(XS (bs "c")); (XU (bs "[1,2, 3]")); (XU []); (XL [(XI 1); (XI 2)])]));
    K (bs "{""string"":""d"",""json"":{""foo"":[""bar"", null]},""tail"":[1,2]}") None (WOk (XL [(XS (bs "d")); (XU (bs "{""foo"":[""bar"", null]}")); (XU []); (XL [(XI 1); (XI 2)])]))].
Example g118_ideal : spec_group g118 = Some [].
Proof. vm_compute. reflexivity. Qed.
Example g118_conforms : (run_group false g118, run_group true g118) = ([], []).
Proof. vm_compute. reflexivity. Qed.
(* TestDecodeJSONUnmarshalerErr *)
Definition g119 : group :=
  G [Decl (TOther) 16 SSome SNone] [0%nat] (TNamed 0) default_opts
   [K (bs "123") None (WErr None (EUser 1))].
Example g119_ideal : spec_group g119 = Some [].
Proof. vm_compute. reflexivity. Qed.
Example g119_conforms : (run_group false g119, run_group true g119) = ([], []).
Proof. vm_compute. reflexivity. Qed.
(* TestDecodeJSONUnmarshalerErr *)
Definition g120 : group :=
  G [Decl (TOther) 16 SNone SSome] [0%nat] (TMap (TNamed 0) (TStruct 0 0 [])) default_opts
   [K (bs "{""x"":""y""}") None (WErr None (EUser 1))].
Example g120_ideal : spec_group g120 = Some [].
Proof. vm_compute. reflexivity. Qed.
Example g120_conforms : (run_group false g120, run_group true g120) = ([], []).
Proof. vm_compute. reflexivity. Qed.
(* TestDecodeJSONUnmarshalerErr *)
Definition g121 : group :=
  G [Decl (TStruct 0 16 [(Fld (bs "Unmarshaler") [] 0, TNamed 1)]) 16 SNone SNone; Decl (TOther) 16 SNone SSome] [1%nat] (TNamed 0) default_opts
   [K (bs "{""Unmarshaler"":""abc""}") None (WErr None (EUser 1))].
Example g121_ideal : spec_group g121 = Some [].
Proof. vm_compute. reflexivity. Qed.
Example g121_conforms : (run_group false g121, run_group true g121) = ([], []).
Proof. vm_compute. reflexivity. Qed.
(* TestDecodeNumber *)
Definition g122 : group :=
  G [] [] (TNumber) default_opts
   [K (bs "null") None (WOk (XS []));
    K (bs "0") None (WOk (XS (bs "0")));
    K (bs "1") None (WOk (XS (bs "1")));
    K (bs "-1") None (WOk (XS (bs "-1")));
    K (bs "-2147483648") None (WOk (XS (bs "-2147483648")));
    K (bs "2147483647") None (WOk (XS (bs "2147483647")));
    K (bs "-9223372036854775808") None (WOk (XS (bs "-9223372036854775808")));
    K (bs "9223372036854775807") None (WOk (XS (bs "9223372036854775807")));
    K (bs "9223372036854775808") None (WOk (XS (bs "9223372036854775808")));
    K (bs "-9223372036854775809") None (WOk (XS (bs "-9223372036854775809")));
    K (bs "123456789012345678901234567890123456789012345678901234567890") None (WOk (XS (bs "123456789012345678901234567890123456789012345678901234567890")));
    K (bs "0.1") None (WOk (XS (bs "0.1")));
    K (bs "-0.1") None (WOk (XS (bs "-0.1")));
    K (bs "1234567890123456789012345678901234567890123456789012345678901234567890.0") None (WOk (XS (bs "1234567890123456789012345678901234567890123456789012345678901234567890.0")));
    K (bs "0.1234567890123456789012345678901234567890123456789012345678901234567890") None (WOk (XS (bs "0.1234567890123456789012345678901234567890123456789012345678901234567890")));
    K (bs "1234567890123456789012345678901234567890.123456789012345678901234567890") None (WOk (XS (bs "1234567890123456789012345678901234567890.123456789012345678901234567890")));
    K (bs "1234e1234") None (WOk (XS (bs "1234e1234")));
    K (bs "1234E1234") None (WOk (XS (bs "1234E1234")));
    K (bs "1234E-1234") None (WOk (XS (bs "1234E-1234")));
    K (bs """0""") None (WOk (XS (bs "0")));
    K (bs """1""") None (WOk (XS (bs "1")));
    K (bs """-1""") None (WOk (XS (bs "-1")));
    K (bs """-2147483648""") None (WOk (XS (bs "-2147483648")));
    K (bs """2147483647""") None (WOk (XS (bs "2147483647")));
    K (bs """-9223372036854775808""") None (WOk (XS (bs "-9223372036854775808")));
    K (bs """9223372036854775807""") None (WOk (XS (bs "9223372036854775807")));
    K (bs """9223372036854775808""") None (WOk (XS (bs "9223372036854775808")));
    K (bs """-9223372036854775809""") None (WOk (XS (bs "-9223372036854775809")));
    K (bs """123456789012345678901234567890123456789012345678901234567890""") None (WOk (XS (bs "123456789012345678901234567890123456789012345678901234567890")));
    K (bs """0.1""") None (WOk (XS (bs "0.1")));
    K (bs """-0.1""") None (WOk (XS (bs "-0.1")));
    K (bs """1234567890123456789012345678901234567890123456789012345678901234567890.0""") None (WOk (XS (bs "1234567890123456789012345678901234567890123456789012345678901234567890.0")));
    K (bs """0.1234567890123456789012345678901234567890123456789012345678901234567890""") None (WOk (XS (bs "0.1234567890123456789012345678901234567890123456789012345678901234567890")));
    K (bs """1234567890123456789012345678901234567890.123456789012345678901234567890""") None (WOk (XS (bs "1234567890123456789012345678901234567890.123456789012345678901234567890")));
    K (bs """1234e1234""") None (WOk (XS (bs "1234e1234")));
    K (bs """1234E1234""") None (WOk (XS (bs "1234E1234")));
    K (bs """1234E-1234""") None (WOk (XS (bs "1234E-1234")));
    K (bs "true") None (WErr (Some 0) EUnexpected);
    K (bs "false") None (WErr (Some 0) EUnexpected);
    K (bs "[]") None (WErr (Some 0) EUnexpected);
    K (bs "{}") None (WErr (Some 0) EUnexpected)].
Example g122_ideal : spec_group g122 = Some [].
Proof. vm_compute. reflexivity. Qed.
Example g122_conforms : (run_group false g122, run_group true g122) = ([], []).
Proof. vm_compute. reflexivity. Qed.
(* TestDisableFieldNameUnescaping *)
Definition g123 : group :=
  G [Decl (TStruct 0 16 [(Fld (bs "ID") (bs "id") 0, TStr)]) 16 SNone SNone] [] (TNamed 0) (Opts false true false)
   [K (bs "{""id"":""ok""}") None (WOk (XL [(XS (bs "ok"))]));
    K (bs "{""ID"":""ok""}") None (WOk (XL [(XS (bs "ok"))]));
    K (bs "{""\u0069\u0064"":""not ok""}") None (WOk (XL [XZ]));
    K (bs "{""\u0049\u0044"":""not ok""}") None (WOk (XL [XZ]))].
Example g123_ideal : spec_group g123 = Some [].
Proof. vm_compute. reflexivity. Qed.
Example g123_conforms : (run_group false g123, run_group true g123) = ([], []).
Proof. vm_compute. reflexivity. Qed.
(* TestEscapedStructTag *)
Definition g124 : group :=
  G [Decl (TStruct 0 16 [(Fld (bs "ID") (bs "id") 0, TStr)]) 16 SNone SNone] [] (TNamed 0) default_opts
   [K (bs "{""\u0069\u0064"":""ok""}") None (WOk (XL [(XS (bs "ok"))]))].
Example g124_ideal : spec_group g124 = Some [].
Proof. vm_compute. reflexivity. Qed.
Example g124_conforms : (run_group false g124, run_group true g124) = ([], []).
Proof. vm_compute. reflexivity. Qed.
(* TestDisableFieldNameUnescapingNoTag *)
Definition g125 : group :=
  G [Decl (TStruct 0 16 [(Fld (bs "ID") [] 0, TStr)]) 16 SNone SNone] [] (TNamed 0) (Opts false true false)
   [K (bs "{""ID"":""ok""}") None (WOk (XL [(XS (bs "ok"))]));
    K (bs "{""id"":""ok""}") None (WOk (XL [(XS (bs "ok"))]));
    K (bs "{""\u0049\u0044"":""not ok""}") None (WOk (XL [XZ]));
    K (bs "{""\u0069\u0064"":""not ok""}") None (WOk (XL [XZ]))].
Example g125_ideal : spec_group g125 = Some [].
Proof. vm_compute. reflexivity. Qed.
Example g125_conforms : (run_group false g125, run_group true g125) = ([], []).
Proof. vm_compute. reflexivity. Qed.
(* TestDisableCaseInsensitiveMatching *)
Definition g126 : group :=
  G [Decl (TStruct 0 16 [(Fld (bs "ID") (bs "id") 0, TStr)]) 16 SNone SNone] [] (TNamed 0) (Opts false false true)
   [K (bs "{""id"":""ok""}") None (WOk (XL [(XS (bs "ok"))]));
    K (bs "{""ID"":""not ok""}") None (WOk (XL [XZ]));
    K (bs "{""Id"":""not ok""}") None (WOk (XL [XZ]))].
Example g126_ideal : spec_group g126 = Some [].
Proof. vm_compute. reflexivity. Qed.
Example g126_conforms : (run_group false g126, run_group true g126) = ([], []).
Proof. vm_compute. reflexivity. Qed.
(* TestDisableCaseInsensitiveMatchingNoTag *)
Definition g127 : group :=
  G [Decl (TStruct 0 16 [(Fld (bs "ID") [] 0, TStr)]) 16 SNone SNone] [] (TNamed 0) (Opts false false true)
   [K (bs "{""ID"":""ok""}") None (WOk (XL [(XS (bs "ok"))]));
    K (bs "{""id"":""not ok""}") None (WOk (XL [XZ]));
    K (bs "{""Id"":""not ok""}") None (WOk (XL [XZ]))].
Example g127_ideal : spec_group g127 = Some [].
Proof. vm_compute. reflexivity. Qed.
Example g127_conforms : (run_group false g127, run_group true g127) = ([], []).
Proof. vm_compute. reflexivity. Qed.
Example stack0_conforms :
  stack_case [] (TStr)
   [XFr EStr 16 0 None 0 0 [] false] = true.
Proof. vm_compute. reflexivity. Qed.
Example stack1_conforms :
  stack_case [] (TInt (NK true WWord))
   [XFr (EInt (NK true WWord)) 8 0 None 0 0 [] false] = true.
Proof. vm_compute. reflexivity. Qed.
Example stack2_conforms :
  stack_case [] (TStruct 0 0 [])
   [XFr EEmptyStruct 0 0 None 0 0 [] false] = true.
Proof. vm_compute. reflexivity. Qed.
Example stack3_conforms :
  stack_case [Decl (TStruct 0 24 [(Fld (bs "Foo") (bs "foo") 0, TInt (NK true WWord)); (Fld (bs "Bar") (bs "bar") 8, TStr)]) 24 SNone SNone] (TNamed 0)
   [XFr EStruct 24 0 None 0 0 [((bs "foo"), 1%nat); ((bs "bar"), 2%nat)] true;
    XFr (EInt (NK true WWord)) 8 0 (Some 0%nat) 0 0 [] false;
    XFr EStr 16 8 (Some 0%nat) 0 0 [] false] = true.
Proof. vm_compute. reflexivity. Qed.
Example stack4_conforms :
  stack_case [Decl (TStruct 0 64 [(Fld (bs "S1") [] 0, TNamed 1); (Fld (bs "Bar") [] 24, TSlice (TStr)); (Fld (bs "Ignored") (bs "-") 48, TInt (NK true W16)); (Fld (bs "Bazz") (bs "bazz") 56, TInt (NK true WWord))]) 64 SNone SNone; Decl (TStruct 1 24 [(Fld (bs "Foo") (bs "foo") 0, TInt (NK true WWord)); (Fld (bs "Bar") (bs "bar") 8, TStr)]) 24 SNone SNone] (TNamed 0)
   [XFr EStruct 64 0 None 0 0 [((bs "S1"), 1%nat); ((bs "Bar"), 4%nat); ((bs "bazz"), 5%nat)] true;
    XFr EStruct 24 0 (Some 0%nat) 0 0 [((bs "foo"), 2%nat); ((bs "bar"), 3%nat)] true;
    XFr (EInt (NK true WWord)) 8 0 (Some 1%nat) 0 0 [] false;
    XFr EStr 16 8 (Some 1%nat) 0 0 [] false;
    XFr ESliceStr 24 24 (Some 0%nat) 0 0 [] false;
    XFr (EInt (NK true WWord)) 8 56 (Some 0%nat) 0 0 [] false] = true.
Proof. vm_compute. reflexivity. Qed.
Example stack5_conforms :
  stack_case [] (TSlice (TBool))
   [XFr ESliceBool 24 0 None 0 0 [] false] = true.
Proof. vm_compute. reflexivity. Qed.
Example stack6_conforms :
  stack_case [] (TSlice (TStr))
   [XFr ESliceStr 24 0 None 0 0 [] false] = true.
Proof. vm_compute. reflexivity. Qed.
Example stack7_conforms :
  stack_case [] (TSlice (TInt (NK true WWord)))
   [XFr (ESliceInt (NK true WWord)) 24 0 None 0 0 [] false] = true.
Proof. vm_compute. reflexivity. Qed.
Example stack8_conforms :
  stack_case [] (TSlice (TInt (NK true W8)))
   [XFr (ESliceInt (NK true W8)) 24 0 None 0 0 [] false] = true.
Proof. vm_compute. reflexivity. Qed.
Example stack9_conforms :
  stack_case [] (TSlice (TInt (NK true W16)))
   [XFr (ESliceInt (NK true W16)) 24 0 None 0 0 [] false] = true.
Proof. vm_compute. reflexivity. Qed.
Example stack10_conforms :
  stack_case [] (TSlice (TInt (NK true W32)))
   [XFr (ESliceInt (NK true W32)) 24 0 None 0 0 [] false] = true.
Proof. vm_compute. reflexivity. Qed.
Example stack11_conforms :
  stack_case [] (TSlice (TInt (NK true W64)))
   [XFr (ESliceInt (NK true W64)) 24 0 None 0 0 [] false] = true.
Proof. vm_compute. reflexivity. Qed.
Example stack12_conforms :
  stack_case [] (TSlice (TInt (NK false WWord)))
   [XFr (ESliceInt (NK false WWord)) 24 0 None 0 0 [] false] = true.
Proof. vm_compute. reflexivity. Qed.
Example stack13_conforms :
  stack_case [] (TSlice (TInt (NK false W8)))
   [XFr (ESliceInt (NK false W8)) 24 0 None 0 0 [] false] = true.
Proof. vm_compute. reflexivity. Qed.
Example stack14_conforms :
  stack_case [] (TSlice (TInt (NK false W16)))
   [XFr (ESliceInt (NK false W16)) 24 0 None 0 0 [] false] = true.
Proof. vm_compute. reflexivity. Qed.
Example stack15_conforms :
  stack_case [] (TSlice (TInt (NK false W32)))
   [XFr (ESliceInt (NK false W32)) 24 0 None 0 0 [] false] = true.
Proof. vm_compute. reflexivity. Qed.
Example stack16_conforms :
  stack_case [] (TSlice (TInt (NK false W64)))
   [XFr (ESliceInt (NK false W64)) 24 0 None 0 0 [] false] = true.
Proof. vm_compute. reflexivity. Qed.
Example stack17_conforms :
  stack_case [] (TSlice (TInt (NK false W8)))
   [XFr (ESliceInt (NK false W8)) 24 0 None 0 0 [] false] = true.
Proof. vm_compute. reflexivity. Qed.
Example stack18_conforms :
  stack_case [] (TSlice (TSlice (TSlice (TStr))))
   [XFr ESlice 24 0 None 0 0 [] false;
    XFr ESlice 24 0 (Some 0%nat) 0 0 [] false;
    XFr ESliceStr 24 0 (Some 1%nat) 0 0 [] false] = true.
Proof. vm_compute. reflexivity. Qed.
Example stack19_conforms :
  stack_case [Decl (TStruct 0 24 [(Fld (bs "Foo") (bs "foo") 0, TInt (NK true WWord)); (Fld (bs "Bar") (bs "bar") 8, TStr)]) 24 SNone SNone] (TSlice (TNamed 0))
   [XFr ESlice 24 0 None 0 0 [] false;
    XFr EStruct 24 0 (Some 0%nat) 0 0 [((bs "foo"), 2%nat); ((bs "bar"), 3%nat)] true;
    XFr (EInt (NK true WWord)) 8 0 (Some 1%nat) 0 0 [] false;
    XFr EStr 16 8 (Some 1%nat) 0 0 [] false] = true.
Proof. vm_compute. reflexivity. Qed.
Example stack20_conforms :
  stack_case [] (TArr 0 (TInt (NK true WWord)))
   [XFr EArray0 0 0 None 0 0 [] false] = true.
Proof. vm_compute. reflexivity. Qed.
Example stack21_conforms :
  stack_case [] (TArr 0 (TArr 0 (TStr)))
   [XFr EArray0 0 0 None 0 0 [] false] = true.
Proof. vm_compute. reflexivity. Qed.
Example stack22_conforms :
  stack_case [] (TArr 3 (TArr 0 (TStr)))
   [XFr EArray 0 0 None 0 0 [] false;
    XFr EArray0 0 0 (Some 0%nat) 0 3 [] false] = true.
Proof. vm_compute. reflexivity. Qed.
Example stack23_conforms :
  stack_case [] (TArr 4 (TInt (NK true WWord)))
   [XFr EArray 32 0 None 0 0 [] false;
    XFr (EInt (NK true WWord)) 8 0 (Some 0%nat) 0 4 [] false] = true.
Proof. vm_compute. reflexivity. Qed.
Example stack24_conforms :
  stack_case [] (TMap (TStr) (TStr))
   [XFr EMapSS 8 0 None 0 0 [] true] = true.
Proof. vm_compute. reflexivity. Qed.
Example stack25_conforms :
  stack_case [] (TMap (TStr) (TStruct 0 256 [(Fld (bs "F") [] 0, TArr 256 (TInt (NK false W8)))]))
   [XFr EMap 8 0 None 0 0 [] true;
    XFr EStr 16 0 (Some 0%nat) 0 0 [] false;
    XFr EStruct 256 0 (Some 0%nat) 0 0 [((bs "F"), 3%nat)] true;
    XFr EArray 256 0 (Some 2%nat) 0 0 [] false;
    XFr (EInt (NK false W8)) 1 0 (Some 3%nat) 0 256 [] false] = true.
Proof. vm_compute. reflexivity. Qed.
Example stack26_conforms :
  stack_case [Decl (TOther) 8 SNone SSome] (TMap (TNamed 0) (TInt (NK true WWord)))
   [XFr EMap 8 0 None 0 0 [] true;
    XFr EText 8 0 (Some 0%nat) 0 0 [] true;
    XFr (EInt (NK true WWord)) 8 0 (Some 0%nat) 0 0 [] false] = true.
Proof. vm_compute. reflexivity. Qed.
Example stack27_conforms :
  stack_case [Decl (TStruct 0 24 [(Fld (bs "Foo") (bs "foo") 0, TInt (NK true WWord)); (Fld (bs "Bar") (bs "bar") 8, TStr)]) 24 SNone SNone] (TMap (TInt (NK true WWord)) (TNamed 0))
   [XFr EMap 8 0 None 0 0 [] true;
    XFr (EInt (NK true WWord)) 8 0 (Some 0%nat) 0 0 [] false;
    XFr EStruct 24 0 (Some 0%nat) 0 0 [((bs "foo"), 3%nat); ((bs "bar"), 4%nat)] true;
    XFr (EInt (NK true WWord)) 8 0 (Some 2%nat) 0 0 [] false;
    XFr EStr 16 8 (Some 2%nat) 0 0 [] false] = true.
Proof. vm_compute. reflexivity. Qed.
Example stack28_conforms :
  stack_case [] (TMap (TInt (NK true WWord)) (TMap (TStr) (TFloat B32)))
   [XFr EMap 8 0 None 0 0 [] true;
    XFr (EInt (NK true WWord)) 8 0 (Some 0%nat) 0 0 [] false;
    XFr EMap 8 0 (Some 0%nat) 0 0 [] true;
    XFr EStr 16 0 (Some 2%nat) 0 0 [] false;
    XFr (EF B32) 4 0 (Some 2%nat) 0 0 [] false] = true.
Proof. vm_compute. reflexivity. Qed.
Example stack29_conforms :
  stack_case [] (TMap (TInt (NK true W8)) (TInt (NK true W8)))
   [XFr EMap 8 0 None 0 0 [] true;
    XFr (EInt (NK true W8)) 1 0 (Some 0%nat) 0 0 [] false;
    XFr (EInt (NK true W8)) 1 0 (Some 0%nat) 0 0 [] false] = true.
Proof. vm_compute. reflexivity. Qed.
Example stack30_conforms :
  stack_case [] (TMap (TInt (NK true W16)) (TInt (NK true W16)))
   [XFr EMap 8 0 None 0 0 [] true;
    XFr (EInt (NK true W16)) 2 0 (Some 0%nat) 0 0 [] false;
    XFr (EInt (NK true W16)) 2 0 (Some 0%nat) 0 0 [] false] = true.
Proof. vm_compute. reflexivity. Qed.
Example stack31_conforms :
  stack_case [] (TMap (TInt (NK true W32)) (TInt (NK true W32)))
   [XFr EMap 8 0 None 0 0 [] true;
    XFr (EInt (NK true W32)) 4 0 (Some 0%nat) 0 0 [] false;
    XFr (EInt (NK true W32)) 4 0 (Some 0%nat) 0 0 [] false] = true.
Proof. vm_compute. reflexivity. Qed.
Example stack32_conforms :
  stack_case [] (TMap (TInt (NK true W64)) (TInt (NK true W64)))
   [XFr EMap 8 0 None 0 0 [] true;
    XFr (EInt (NK true W64)) 8 0 (Some 0%nat) 0 0 [] false;
    XFr (EInt (NK true W64)) 8 0 (Some 0%nat) 0 0 [] false] = true.
Proof. vm_compute. reflexivity. Qed.
Example stack33_conforms :
  stack_case [] (TMap (TInt (NK false WWord)) (TInt (NK false WWord)))
   [XFr EMap 8 0 None 0 0 [] true;
    XFr (EInt (NK false WWord)) 8 0 (Some 0%nat) 0 0 [] false;
    XFr (EInt (NK false WWord)) 8 0 (Some 0%nat) 0 0 [] false] = true.
Proof. vm_compute. reflexivity. Qed.
Example stack34_conforms :
  stack_case [] (TMap (TInt (NK false W8)) (TInt (NK false W8)))
   [XFr EMap 8 0 None 0 0 [] true;
    XFr (EInt (NK false W8)) 1 0 (Some 0%nat) 0 0 [] false;
    XFr (EInt (NK false W8)) 1 0 (Some 0%nat) 0 0 [] false] = true.
Proof. vm_compute. reflexivity. Qed.
Example stack35_conforms :
  stack_case [] (TMap (TInt (NK false W16)) (TInt (NK false W16)))
   [XFr EMap 8 0 None 0 0 [] true;
    XFr (EInt (NK false W16)) 2 0 (Some 0%nat) 0 0 [] false;
    XFr (EInt (NK false W16)) 2 0 (Some 0%nat) 0 0 [] false] = true.
Proof. vm_compute. reflexivity. Qed.
Example stack36_conforms :
  stack_case [] (TMap (TInt (NK false W32)) (TInt (NK false W32)))
   [XFr EMap 8 0 None 0 0 [] true;
    XFr (EInt (NK false W32)) 4 0 (Some 0%nat) 0 0 [] false;
    XFr (EInt (NK false W32)) 4 0 (Some 0%nat) 0 0 [] false] = true.
Proof. vm_compute. reflexivity. Qed.
Example stack37_conforms :
  stack_case [] (TMap (TInt (NK false W64)) (TInt (NK false W64)))
   [XFr EMap 8 0 None 0 0 [] true;
    XFr (EInt (NK false W64)) 8 0 (Some 0%nat) 0 0 [] false;
    XFr (EInt (NK false W64)) 8 0 (Some 0%nat) 0 0 [] false] = true.
Proof. vm_compute. reflexivity. Qed.
Example stack38_conforms :
  stack_case [Decl (TStruct 0 48 [(Fld (bs "Any") [] 0, TAny); (Fld (bs "Map") [] 16, TMap (TStr) (TAny)); (Fld (bs "Slice") [] 24, TSlice (TAny))]) 48 SNone SNone] (TNamed 0)
   [XFr EStruct 48 0 None 0 0 [((bs "Any"), 1%nat); ((bs "Map"), 2%nat); ((bs "Slice"), 5%nat)] true;
    XFr EAny 16 0 (Some 0%nat) 0 0 [] false;
    XFr EMap 8 16 (Some 0%nat) 0 0 [] true;
    XFr EStr 16 0 (Some 2%nat) 0 0 [] false;
    XFr EAny 16 0 (Some 2%nat) 0 0 [] false;
    XFr ESlice 24 24 (Some 0%nat) 0 0 [] false;
    XFr EAny 16 0 (Some 5%nat) 0 0 [] false] = true.
Proof. vm_compute. reflexivity. Qed.
Example stack39_conforms :
  stack_case [] (TPtr (TInt (NK true WWord)))
   [XFr EPtr 8 0 None 0 0 [] false;
    XFr (EInt (NK true WWord)) 8 0 (Some 0%nat) 0 0 [] false] = true.
Proof. vm_compute. reflexivity. Qed.
Example stack40_conforms :
  stack_case [] (TPtr (TPtr (TInt (NK true WWord))))
   [XFr EPtr 8 0 None 0 0 [] false;
    XFr EPtr 8 0 (Some 0%nat) 0 0 [] false;
    XFr (EInt (NK true WWord)) 8 0 (Some 1%nat) 0 0 [] false] = true.
Proof. vm_compute. reflexivity. Qed.
Example stack41_conforms :
  stack_case [Decl (TOther) 8 SSome SNone] (TNamed 0)
   [XFr EJSON 8 0 None 0 0 [] true] = true.
Proof. vm_compute. reflexivity. Qed.
Example stack42_conforms :
  stack_case [Decl (TOther) 8 SSome SNone] (TPtr (TNamed 0))
   [XFr EJSON 8 0 None 0 0 [] true] = true.
Proof. vm_compute. reflexivity. Qed.
Example stack43_conforms :
  stack_case [Decl (TOther) 8 SNone SSome] (TNamed 0)
   [XFr EText 8 0 None 0 0 [] true] = true.
Proof. vm_compute. reflexivity. Qed.
Example stack44_conforms :
  stack_case [Decl (TOther) 8 SNone SSome] (TPtr (TNamed 0))
   [XFr EText 8 0 None 0 0 [] true] = true.
Proof. vm_compute. reflexivity. Qed.
Example stack45_conforms :
  stack_case [Decl (TOther) 8 SSome SNone] (TSlice (TNamed 0))
   [XFr ESlice 24 0 None 0 0 [] false;
    XFr EJSON 8 0 (Some 0%nat) 0 0 [] true] = true.
Proof. vm_compute. reflexivity. Qed.
Example stack46_conforms :
  stack_case [Decl (TOther) 8 SNone SSome] (TSlice (TNamed 0))
   [XFr ESlice 24 0 None 0 0 [] false;
    XFr EText 8 0 (Some 0%nat) 0 0 [] true] = true.
Proof. vm_compute. reflexivity. Qed.
Example stack47_conforms :
  stack_case [Decl (TOther) 32 SSome SSome] (TNamed 0)
   [XFr EJSON 32 0 None 0 0 [] true] = true.
Proof. vm_compute. reflexivity. Qed.
Example stack48_conforms :
  stack_case [Decl (TStruct 0 48 [(Fld (bs "Name") (bs "name") 0, TStr); (Fld (bs "Unmarshaler") (bs "unmar") 16, TNamed 1); (Fld (bs "Tail") (bs "tail") 24, TSlice (TInt (NK true WWord)))]) 48 SNone SNone; Decl (TOther) 8 SSome SNone] (TNamed 0)
   [XFr EStruct 48 0 None 0 0 [((bs "name"), 1%nat); ((bs "unmar"), 2%nat); ((bs "tail"), 3%nat)] true;
    XFr EStr 16 0 (Some 0%nat) 0 0 [] false;
    XFr EJSON 8 16 (Some 0%nat) 0 0 [] true;
    XFr (ESliceInt (NK true WWord)) 24 24 (Some 0%nat) 0 0 [] false] = true.
Proof. vm_compute. reflexivity. Qed.
Example stack49_conforms :
  stack_case [Decl (TStruct 0 48 [(Fld (bs "Name") (bs "name") 0, TStr); (Fld (bs "Unmarshaler") (bs "unmar") 16, TPtr (TNamed 1)); (Fld (bs "Tail") (bs "tail") 24, TSlice (TInt (NK true WWord)))]) 48 SNone SNone; Decl (TOther) 8 SSome SNone] (TNamed 0)
   [XFr EStruct 48 0 None 0 0 [((bs "name"), 1%nat); ((bs "unmar"), 2%nat); ((bs "tail"), 3%nat)] true;
    XFr EStr 16 0 (Some 0%nat) 0 0 [] false;
    XFr EJSON 8 16 (Some 0%nat) 0 0 [] true;
    XFr (ESliceInt (NK true WWord)) 24 24 (Some 0%nat) 0 0 [] false] = true.
Proof. vm_compute. reflexivity. Qed.
Example stack50_conforms :
  stack_case [Decl (TStruct 0 16 [(Fld (bs "String") (bs ",string") 0, TStr)]) 16 SNone SNone] (TNamed 0)
   [XFr EStruct 16 0 None 0 0 [((bs "String"), 1%nat)] true;
    XFr EStrS 16 0 (Some 0%nat) 0 0 [] false] = true.
Proof. vm_compute. reflexivity. Qed.
Example stack51_conforms :
  stack_case [Decl (TStruct 0 16 [(Fld (bs "String") (bs ",string") 0, TStr)]) 16 SNone SNone] (TNamed 0)
   [XFr EStruct 16 0 None 0 0 [((bs "String"), 1%nat)] true;
    XFr EStrS 16 0 (Some 0%nat) 0 0 [] false] = true.
Proof. vm_compute. reflexivity. Qed.
Example stack52_conforms :
  stack_case [Decl (TStruct 0 1 [(Fld (bs "Bool") (bs ",string") 0, TBool)]) 1 SNone SNone] (TNamed 0)
   [XFr EStruct 1 0 None 0 0 [((bs "Bool"), 1%nat)] true;
    XFr EBoolS 1 0 (Some 0%nat) 0 0 [] false] = true.
Proof. vm_compute. reflexivity. Qed.
Example stack53_conforms :
  stack_case [Decl (TStruct 0 4 [(Fld (bs "Float32") (bs ",string") 0, TFloat B32)]) 4 SNone SNone] (TNamed 0)
   [XFr EStruct 4 0 None 0 0 [((bs "Float32"), 1%nat)] true;
    XFr (EFS B32) 4 0 (Some 0%nat) 0 0 [] false] = true.
Proof. vm_compute. reflexivity. Qed.
Example stack54_conforms :
  stack_case [Decl (TStruct 0 8 [(Fld (bs "Float64") (bs ",string") 0, TFloat B64)]) 8 SNone SNone] (TNamed 0)
   [XFr EStruct 8 0 None 0 0 [((bs "Float64"), 1%nat)] true;
    XFr (EFS B64) 8 0 (Some 0%nat) 0 0 [] false] = true.
Proof. vm_compute. reflexivity. Qed.
Example stack55_conforms :
  stack_case [Decl (TStruct 0 8 [(Fld (bs "Int") (bs ",string") 0, TInt (NK true WWord))]) 8 SNone SNone] (TNamed 0)
   [XFr EStruct 8 0 None 0 0 [((bs "Int"), 1%nat)] true;
    XFr (EIntS (NK true WWord)) 8 0 (Some 0%nat) 0 0 [] false] = true.
Proof. vm_compute. reflexivity. Qed.
Example stack56_conforms :
  stack_case [Decl (TStruct 0 1 [(Fld (bs "Int8") (bs ",string") 0, TInt (NK true W8))]) 1 SNone SNone] (TNamed 0)
   [XFr EStruct 1 0 None 0 0 [((bs "Int8"), 1%nat)] true;
    XFr (EIntS (NK true W8)) 1 0 (Some 0%nat) 0 0 [] false] = true.
Proof. vm_compute. reflexivity. Qed.
Example stack57_conforms :
  stack_case [Decl (TStruct 0 2 [(Fld (bs "Int16") (bs ",string") 0, TInt (NK true W16))]) 2 SNone SNone] (TNamed 0)
   [XFr EStruct 2 0 None 0 0 [((bs "Int16"), 1%nat)] true;
    XFr (EIntS (NK true W16)) 2 0 (Some 0%nat) 0 0 [] false] = true.
Proof. vm_compute. reflexivity. Qed.
Example stack58_conforms :
  stack_case [Decl (TStruct 0 4 [(Fld (bs "Int32") (bs ",string") 0, TInt (NK true W32))]) 4 SNone SNone] (TNamed 0)
   [XFr EStruct 4 0 None 0 0 [((bs "Int32"), 1%nat)] true;
    XFr (EIntS (NK true W32)) 4 0 (Some 0%nat) 0 0 [] false] = true.
Proof. vm_compute. reflexivity. Qed.
Example stack59_conforms :
  stack_case [Decl (TStruct 0 8 [(Fld (bs "Int64") (bs ",string") 0, TInt (NK true W64))]) 8 SNone SNone] (TNamed 0)
   [XFr EStruct 8 0 None 0 0 [((bs "Int64"), 1%nat)] true;
    XFr (EIntS (NK true W64)) 8 0 (Some 0%nat) 0 0 [] false] = true.
Proof. vm_compute. reflexivity. Qed.
Example stack60_conforms :
  stack_case [Decl (TStruct 0 8 [(Fld (bs "Uint") (bs ",string") 0, TInt (NK false WWord))]) 8 SNone SNone] (TNamed 0)
   [XFr EStruct 8 0 None 0 0 [((bs "Uint"), 1%nat)] true;
    XFr (EIntS (NK false WWord)) 8 0 (Some 0%nat) 0 0 [] false] = true.
Proof. vm_compute. reflexivity. Qed.
Example stack61_conforms :
  stack_case [Decl (TStruct 0 1 [(Fld (bs "Uint8") (bs ",string") 0, TInt (NK false W8))]) 1 SNone SNone] (TNamed 0)
   [XFr EStruct 1 0 None 0 0 [((bs "Uint8"), 1%nat)] true;
    XFr (EIntS (NK false W8)) 1 0 (Some 0%nat) 0 0 [] false] = true.
Proof. vm_compute. reflexivity. Qed.
Example stack62_conforms :
  stack_case [Decl (TStruct 0 2 [(Fld (bs "Uint16") (bs ",string") 0, TInt (NK false W16))]) 2 SNone SNone] (TNamed 0)
   [XFr EStruct 2 0 None 0 0 [((bs "Uint16"), 1%nat)] true;
    XFr (EIntS (NK false W16)) 2 0 (Some 0%nat) 0 0 [] false] = true.
Proof. vm_compute. reflexivity. Qed.
Example stack63_conforms :
  stack_case [Decl (TStruct 0 4 [(Fld (bs "Uint32") (bs ",string") 0, TInt (NK false W32))]) 4 SNone SNone] (TNamed 0)
   [XFr EStruct 4 0 None 0 0 [((bs "Uint32"), 1%nat)] true;
    XFr (EIntS (NK false W32)) 4 0 (Some 0%nat) 0 0 [] false] = true.
Proof. vm_compute. reflexivity. Qed.
Example stack64_conforms :
  stack_case [Decl (TStruct 0 8 [(Fld (bs "Uint64") (bs ",string") 0, TInt (NK false W64))]) 8 SNone SNone] (TNamed 0)
   [XFr EStruct 8 0 None 0 0 [((bs "Uint64"), 1%nat)] true;
    XFr (EIntS (NK false W64)) 8 0 (Some 0%nat) 0 0 [] false] = true.
Proof. vm_compute. reflexivity. Qed.
Example stack65_conforms :
  stack_case [Decl (TStruct 0 40 [(Fld (bs "ID") [] 0, TStr); (Fld (bs "Recursion") [] 16, TSlice (TNamed 0))]) 40 SNone SNone] (TSlice (TNamed 0))
   [XFr ESlice 24 0 None 0 0 [] false;
    XFr EStructRecur 40 0 (Some 0%nat) 0 0 [((bs "ID"), 2%nat); ((bs "Recursion"), 3%nat)] true;
    XFr EStr 16 0 (Some 1%nat) 0 0 [] false;
    XFr ESliceRecur 24 16 (Some 1%nat) 1 0 [] false] = true.
Proof. vm_compute. reflexivity. Qed.
Example stack66_conforms :
  stack_case [Decl (TStruct 0 24 [(Fld (bs "ID") [] 0, TStr); (Fld (bs "Recursion") [] 16, TMap (TStr) (TNamed 0))]) 24 SNone SNone] (TSlice (TNamed 0))
   [XFr ESlice 24 0 None 0 0 [] false;
    XFr EStructRecur 24 0 (Some 0%nat) 0 0 [((bs "ID"), 2%nat); ((bs "Recursion"), 3%nat)] true;
    XFr EStr 16 0 (Some 1%nat) 0 0 [] false;
    XFr EMapRecur 8 16 (Some 1%nat) 1 0 [] false;
    XFr EStr 16 0 (Some 3%nat) 0 0 [] false] = true.
Proof. vm_compute. reflexivity. Qed.
Example stack67_conforms :
  stack_case [Decl (TStruct 0 24 [(Fld (bs "ID") [] 0, TStr); (Fld (bs "Recursion") [] 16, TPtr (TNamed 0))]) 24 SNone SNone] (TSlice (TNamed 0))
   [XFr ESlice 24 0 None 0 0 [] false;
    XFr EStructRecur 24 0 (Some 0%nat) 0 0 [((bs "ID"), 2%nat); ((bs "Recursion"), 3%nat)] true;
    XFr EStr 16 0 (Some 1%nat) 0 0 [] false;
    XFr EPtrRecur 8 16 (Some 1%nat) 1 0 [] false] = true.
Proof. vm_compute. reflexivity. Qed.
(* internal/atoi/atoi_test.go TestU64 *)
Example leaf0_conforms : atoi_bad U64
   [((bs "0"), (0, false));
    ((bs "1"), (1, false));
    ((bs "12"), (12, false));
    ((bs "123"), (123, false));
    ((bs "1234"), (1234, false));
    ((bs "12345"), (12345, false));
    ((bs "123456"), (123456, false));
    ((bs "1234567"), (1234567, false));
    ((bs "12345678"), (12345678, false));
    ((bs "123456789"), (123456789, false));
    ((bs "1234567891"), (1234567891, false));
    ((bs "12345678912"), (12345678912, false));
    ((bs "123456789123"), (123456789123, false));
    ((bs "1234567891234"), (1234567891234, false));
    ((bs "12345678912345"), (12345678912345, false));
    ((bs "123456789123456"), (123456789123456, false));
    ((bs "1234567891234567"), (1234567891234567, false));
    ((bs "12345678912345678"), (12345678912345678, false));
    ((bs "123456789123456789"), (123456789123456789, false));
    ((bs "1234567891234567891"), (1234567891234567891, false));
    ((bs "2147483647"), (2147483647, false));
    ((bs "18446744073709551615"), (18446744073709551615, false));
    ((bs "18446744073709551616"), (0, true));
    ((bs "22222222222222222222"), (0, true));
    ((bs "222222222222222222222"), (0, true))] = [].
Proof. vm_compute. reflexivity. Qed.
(* internal/atoi/atoi_test.go TestI64 *)
Example leaf1_conforms : atoi_bad I64
   [((bs "0"), (0, false));
    ((bs "1"), (1, false));
    ((bs "12"), (12, false));
    ((bs "123"), (123, false));
    ((bs "1234"), (1234, false));
    ((bs "12345"), (12345, false));
    ((bs "123456"), (123456, false));
    ((bs "1234567"), (1234567, false));
    ((bs "12345678"), (12345678, false));
    ((bs "123456789"), (123456789, false));
    ((bs "1234567891"), (1234567891, false));
    ((bs "12345678912"), (12345678912, false));
    ((bs "123456789123"), (123456789123, false));
    ((bs "1234567891234"), (1234567891234, false));
    ((bs "12345678912345"), (12345678912345, false));
    ((bs "123456789123456"), (123456789123456, false));
    ((bs "1234567891234567"), (1234567891234567, false));
    ((bs "12345678912345678"), (12345678912345678, false));
    ((bs "123456789123456789"), (123456789123456789, false));
    ((bs "1234567891234567891"), (1234567891234567891, false));
    ((bs "-1"), ((-1), false));
    ((bs "-12"), ((-12), false));
    ((bs "-123"), ((-123), false));
    ((bs "-1234"), ((-1234), false));
    ((bs "-12345"), ((-12345), false));
    ((bs "-123456"), ((-123456), false));
    ((bs "-1234567"), ((-1234567), false));
    ((bs "-12345678"), ((-12345678), false));
    ((bs "-123456789"), ((-123456789), false));
    ((bs "-1234567891"), ((-1234567891), false));
    ((bs "-12345678912"), ((-12345678912), false));
    ((bs "-123456789123"), ((-123456789123), false));
    ((bs "-1234567891234"), ((-1234567891234), false));
    ((bs "-12345678912345"), ((-12345678912345), false));
    ((bs "-123456789123456"), ((-123456789123456), false));
    ((bs "-1234567891234567"), ((-1234567891234567), false));
    ((bs "-12345678912345678"), ((-12345678912345678), false));
    ((bs "-123456789123456789"), ((-123456789123456789), false));
    ((bs "-1234567891234567891"), ((-1234567891234567891), false));
    ((bs "-2147483648"), ((-2147483648), false));
    ((bs "2147483647"), (2147483647, false));
    ((bs "-9223372036854775808"), ((-9223372036854775808), false));
    ((bs "9223372036854775807"), (9223372036854775807, false));
    ((bs "-9223372036854775809"), (0, true));
    ((bs "9223372036854775808"), (0, true));
    ((bs "-11111111111111111111"), (0, true));
    ((bs "11111111111111111111"), (0, true))] = [].
Proof. vm_compute. reflexivity. Qed.
(* internal/atoi/atoi_test.go TestU32 *)
Example leaf2_conforms : atoi_bad U32
   [((bs "0"), (0, false));
    ((bs "1"), (1, false));
    ((bs "12"), (12, false));
    ((bs "123"), (123, false));
    ((bs "1234"), (1234, false));
    ((bs "12345"), (12345, false));
    ((bs "123456"), (123456, false));
    ((bs "1234567"), (1234567, false));
    ((bs "12345678"), (12345678, false));
    ((bs "123456789"), (123456789, false));
    ((bs "1234567891"), (1234567891, false));
    ((bs "4294967295"), (4294967295, false));
    ((bs "4294967296"), (0, true));
    ((bs "4333333333"), (0, true));
    ((bs "5555555555"), (0, true));
    ((bs "6666666666"), (0, true));
    ((bs "7777777777"), (0, true));
    ((bs "8888888888"), (0, true));
    ((bs "9999999999"), (0, true));
    ((bs "11111111111"), (0, true))] = [].
Proof. vm_compute. reflexivity. Qed.
(* internal/atoi/atoi_test.go TestI32 *)
Example leaf3_conforms : atoi_bad I32
   [((bs "0"), (0, false));
    ((bs "1"), (1, false));
    ((bs "12"), (12, false));
    ((bs "123"), (123, false));
    ((bs "1234"), (1234, false));
    ((bs "12345"), (12345, false));
    ((bs "123456"), (123456, false));
    ((bs "1234567"), (1234567, false));
    ((bs "12345678"), (12345678, false));
    ((bs "123456789"), (123456789, false));
    ((bs "1234567891"), (1234567891, false));
    ((bs "-1"), ((-1), false));
    ((bs "-12"), ((-12), false));
    ((bs "-123"), ((-123), false));
    ((bs "-1234"), ((-1234), false));
    ((bs "-12345"), ((-12345), false));
    ((bs "-123456"), ((-123456), false));
    ((bs "-1234567"), ((-1234567), false));
    ((bs "-12345678"), ((-12345678), false));
    ((bs "-123456789"), ((-123456789), false));
    ((bs "-1234567891"), ((-1234567891), false));
    ((bs "-2147483648"), ((-2147483648), false));
    ((bs "2147483647"), (2147483647, false));
    ((bs "-2147483649"), (0, true));
    ((bs "2147483648"), (0, true));
    ((bs "-9223372036854775808"), (0, true));
    ((bs "9223372036854775807"), (0, true));
    ((bs "-9223372036854775809"), (0, true));
    ((bs "9223372036854775808"), (0, true));
    ((bs "-11111111111111111111"), (0, true));
    ((bs "11111111111111111111"), (0, true))] = [].
Proof. vm_compute. reflexivity. Qed.
(* internal/atoi/atoi_test.go TestI8 *)
Example leaf4_conforms : atoi_bad I8
   [((bs "0"), (0, false));
    ((bs "1"), (1, false));
    ((bs "12"), (12, false));
    ((bs "123"), (123, false));
    ((bs "-1"), ((-1), false));
    ((bs "-12"), ((-12), false));
    ((bs "-123"), ((-123), false));
    ((bs "-128"), ((-128), false));
    ((bs "127"), (127, false));
    ((bs "-129"), (0, true));
    ((bs "128"), (0, true));
    ((bs "-2147483649"), (0, true));
    ((bs "2147483648"), (0, true));
    ((bs "-9223372036854775808"), (0, true));
    ((bs "9223372036854775807"), (0, true));
    ((bs "-9223372036854775809"), (0, true));
    ((bs "9223372036854775808"), (0, true))] = [].
Proof. vm_compute. reflexivity. Qed.
(* internal/atoi/atoi_test.go TestU8 *)
Example leaf5_conforms : atoi_bad U8
   [((bs "0"), (0, false));
    ((bs "1"), (1, false));
    ((bs "12"), (12, false));
    ((bs "123"), (123, false));
    ((bs "255"), (255, false));
    ((bs "256"), (0, true));
    ((bs "300"), (0, true));
    ((bs "999"), (0, true));
    ((bs "1111"), (0, true))] = [].
Proof. vm_compute. reflexivity. Qed.
(* internal/atoi/atoi_test.go TestI16 *)
Example leaf6_conforms : atoi_bad I16
   [((bs "0"), (0, false));
    ((bs "1"), (1, false));
    ((bs "12"), (12, false));
    ((bs "123"), (123, false));
    ((bs "1234"), (1234, false));
    ((bs "12345"), (12345, false));
    ((bs "-1"), ((-1), false));
    ((bs "-12"), ((-12), false));
    ((bs "-123"), ((-123), false));
    ((bs "-1234"), ((-1234), false));
    ((bs "-12345"), ((-12345), false));
    ((bs "-32768"), ((-32768), false));
    ((bs "32767"), (32767, false));
    ((bs "-32769"), (0, true));
    ((bs "32768"), (0, true));
    ((bs "-2147483649"), (0, true));
    ((bs "2147483648"), (0, true));
    ((bs "-9223372036854775808"), (0, true));
    ((bs "9223372036854775807"), (0, true));
    ((bs "-9223372036854775809"), (0, true));
    ((bs "9223372036854775808"), (0, true))] = [].
Proof. vm_compute. reflexivity. Qed.
(* internal/atoi/atoi_test.go TestU16 *)
Example leaf7_conforms : atoi_bad U16
   [((bs "0"), (0, false));
    ((bs "1"), (1, false));
    ((bs "12"), (12, false));
    ((bs "123"), (123, false));
    ((bs "1234"), (1234, false));
    ((bs "12345"), (12345, false));
    ((bs "65535"), (65535, false));
    ((bs "65536"), (0, true));
    ((bs "77777"), (0, true));
    ((bs "2147483648"), (0, true));
    ((bs "9223372036854775807"), (0, true))] = [].
Proof. vm_compute. reflexivity. Qed.
(* internal/jsonnum/jsonnum_test.go TestReadNumber *)
Example leaf8_conforms : num_bad
   [((bs "0"), ([], RInteger));
    ((bs "-0"), ([], RInteger));
    ((bs "12"), ([], RInteger));
    ((bs "-12"), ([], RInteger));
    ((bs "234"), ([], RInteger));
    ((bs "-234"), ([], RInteger));
    ((bs "3456"), ([], RInteger));
    ((bs "-3456"), ([], RInteger));
    ((bs "45678"), ([], RInteger));
    ((bs "-45678"), ([], RInteger));
    ((bs "567890"), ([], RInteger));
    ((bs "-567890"), ([], RInteger));
    ((bs "6789012"), ([], RInteger));
    ((bs "-6789012"), ([], RInteger));
    ((bs "78901234"), ([], RInteger));
    ((bs "-78901234"), ([], RInteger));
    ((bs "890123456"), ([], RInteger));
    ((bs "-890123456"), ([], RInteger));
    ((bs "9012345678"), ([], RInteger));
    ((bs "-9012345678"), ([], RInteger));
    ((bs "90123456789"), ([], RInteger));
    ((bs "-90123456789"), ([], RInteger));
    ((bs "901234567890"), ([], RInteger));
    ((bs "-901234567890"), ([], RInteger));
    ((bs "9012345678901"), ([], RInteger));
    ((bs "-9012345678901"), ([], RInteger));
    ((bs "90123456789012"), ([], RInteger));
    ((bs "-90123456789012"), ([], RInteger));
    ((bs "1x"), ((bs "x"), RInteger));
    ((bs "-1x"), ((bs "x"), RInteger));
    ((bs "0xxxxxxxx"), ((bs "xxxxxxxx"), RInteger));
    ((bs "-0xxxxxxxx"), ((bs "xxxxxxxx"), RInteger));
    ((bs "12xxxxxxxx"), ((bs "xxxxxxxx"), RInteger));
    ((bs "-12xxxxxxxx"), ((bs "xxxxxxxx"), RInteger));
    ((bs "234xxxxxxxx"), ((bs "xxxxxxxx"), RInteger));
    ((bs "-234xxxxxxxx"), ((bs "xxxxxxxx"), RInteger));
    ((bs "3456xxxxxxxx"), ((bs "xxxxxxxx"), RInteger));
    ((bs "-3456xxxxxxxx"), ((bs "xxxxxxxx"), RInteger));
    ((bs "45678xxxxxxxx"), ((bs "xxxxxxxx"), RInteger));
    ((bs "-45678xxxxxxxx"), ((bs "xxxxxxxx"), RInteger));
    ((bs "567890xxxxxxxx"), ((bs "xxxxxxxx"), RInteger));
    ((bs "-567890xxxxxxxx"), ((bs "xxxxxxxx"), RInteger));
    ((bs "6789012xxxxxxxx"), ((bs "xxxxxxxx"), RInteger));
    ((bs "-6789012xxxxxxxx"), ((bs "xxxxxxxx"), RInteger));
    ((bs "78901234xxxxxxxx"), ((bs "xxxxxxxx"), RInteger));
    ((bs "-78901234xxxxxxxx"), ((bs "xxxxxxxx"), RInteger));
    ((bs "890123456xxxxxxxx"), ((bs "xxxxxxxx"), RInteger));
    ((bs "-890123456xxxxxxxx"), ((bs "xxxxxxxx"), RInteger));
    ((bs "9012345678xxxxxxxx"), ((bs "xxxxxxxx"), RInteger));
    ((bs "-9012345678xxxxxxxx"), ((bs "xxxxxxxx"), RInteger));
    ((bs "90123456789xxxxxxxx"), ((bs "xxxxxxxx"), RInteger));
    ((bs "-90123456789xxxxxxxx"), ((bs "xxxxxxxx"), RInteger));
    ((bs "901234567890xxxxxxxx"), ((bs "xxxxxxxx"), RInteger));
    ((bs "-901234567890xxxxxxxx"), ((bs "xxxxxxxx"), RInteger));
    ((bs "9012345678901xxxxxxxx"), ((bs "xxxxxxxx"), RInteger));
    ((bs "-9012345678901xxxxxxxx"), ((bs "xxxxxxxx"), RInteger));
    ((bs "90123456789012xxxxxxxx"), ((bs "xxxxxxxx"), RInteger));
    ((bs "-90123456789012xxxxxxxx"), ((bs "xxxxxxxx"), RInteger));
    ((bs "0.0x"), ((bs "x"), RNumber));
    ((bs "-0.0x"), ((bs "x"), RNumber));
    ((bs "0.0"), ([], RNumber));
    ((bs "-0.0"), ([], RNumber));
    ((bs "0.12"), ([], RNumber));
    ((bs "-0.12"), ([], RNumber));
    ((bs "0.345"), ([], RNumber));
    ((bs "-0.345"), ([], RNumber));
    ((bs "0.4567"), ([], RNumber));
    ((bs "-0.4567"), ([], RNumber));
    ((bs "0.56789"), ([], RNumber));
    ((bs "-0.56789"), ([], RNumber));
    ((bs "0.678901"), ([], RNumber));
    ((bs "-0.678901"), ([], RNumber));
    ((bs "0.7890123"), ([], RNumber));
    ((bs "-0.7890123"), ([], RNumber));
    ((bs "0.89012345"), ([], RNumber));
    ((bs "-0.89012345"), ([], RNumber));
    ((bs "0.901234567"), ([], RNumber));
    ((bs "-0.901234567"), ([], RNumber));
    ((bs "0.0123456789"), ([], RNumber));
    ((bs "-0.0123456789"), ([], RNumber));
    ((bs "0.12345678901"), ([], RNumber));
    ((bs "-0.12345678901"), ([], RNumber));
    ((bs "0.234567890123"), ([], RNumber));
    ((bs "-0.234567890123"), ([], RNumber));
    ((bs "0.3456789012345"), ([], RNumber));
    ((bs "-0.3456789012345"), ([], RNumber));
    ((bs "0.45678901234567"), ([], RNumber));
    ((bs "-0.45678901234567"), ([], RNumber));
    ((bs "0.0xxxxxxxx"), ((bs "xxxxxxxx"), RNumber));
    ((bs "-0.0xxxxxxxx"), ((bs "xxxxxxxx"), RNumber));
    ((bs "0.12xxxxxxxx"), ((bs "xxxxxxxx"), RNumber));
    ((bs "-0.12xxxxxxxx"), ((bs "xxxxxxxx"), RNumber));
    ((bs "0.345xxxxxxxx"), ((bs "xxxxxxxx"), RNumber));
    ((bs "-0.345xxxxxxxx"), ((bs "xxxxxxxx"), RNumber));
    ((bs "0.4567xxxxxxxx"), ((bs "xxxxxxxx"), RNumber));
    ((bs "-0.4567xxxxxxxx"), ((bs "xxxxxxxx"), RNumber));
    ((bs "0.56789xxxxxxxx"), ((bs "xxxxxxxx"), RNumber));
    ((bs "-0.56789xxxxxxxx"), ((bs "xxxxxxxx"), RNumber));
    ((bs "0.678901xxxxxxxx"), ((bs "xxxxxxxx"), RNumber));
    ((bs "-0.678901xxxxxxxx"), ((bs "xxxxxxxx"), RNumber));
    ((bs "0.7890123xxxxxxxx"), ((bs "xxxxxxxx"), RNumber));
    ((bs "-0.7890123xxxxxxxx"), ((bs "xxxxxxxx"), RNumber));
    ((bs "0.89012345xxxxxxxx"), ((bs "xxxxxxxx"), RNumber));
    ((bs "-0.89012345xxxxxxxx"), ((bs "xxxxxxxx"), RNumber));
    ((bs "0.901234567xxxxxxxx"), ((bs "xxxxxxxx"), RNumber));
    ((bs "-0.901234567xxxxxxxx"), ((bs "xxxxxxxx"), RNumber));
    ((bs "0.0123456789xxxxxxxx"), ((bs "xxxxxxxx"), RNumber));
    ((bs "-0.0123456789xxxxxxxx"), ((bs "xxxxxxxx"), RNumber));
    ((bs "0.12345678901xxxxxxxx"), ((bs "xxxxxxxx"), RNumber));
    ((bs "-0.12345678901xxxxxxxx"), ((bs "xxxxxxxx"), RNumber));
    ((bs "0.234567890123xxxxxxxx"), ((bs "xxxxxxxx"), RNumber));
    ((bs "-0.234567890123xxxxxxxx"), ((bs "xxxxxxxx"), RNumber));
    ((bs "0.3456789012345xxxxxxxx"), ((bs "xxxxxxxx"), RNumber));
    ((bs "-0.3456789012345xxxxxxxx"), ((bs "xxxxxxxx"), RNumber));
    ((bs "0.45678901234567xxxxxxxx"), ((bs "xxxxxxxx"), RNumber));
    ((bs "-0.45678901234567xxxxxxxx"), ((bs "xxxxxxxx"), RNumber));
    ((bs "0.0e2"), ([], RNumber));
    ((bs "-0.0e2"), ([], RNumber));
    ((bs "0.12e2"), ([], RNumber));
    ((bs "-0.12e2"), ([], RNumber));
    ((bs "0.345e2"), ([], RNumber));
    ((bs "-0.345e2"), ([], RNumber));
    ((bs "0.4567e2"), ([], RNumber));
    ((bs "-0.4567e2"), ([], RNumber));
    ((bs "0.56789e2"), ([], RNumber));
    ((bs "-0.56789e2"), ([], RNumber));
    ((bs "0.678901e2"), ([], RNumber));
    ((bs "-0.678901e2"), ([], RNumber));
    ((bs "0.7890123e2"), ([], RNumber));
    ((bs "-0.7890123e2"), ([], RNumber));
    ((bs "0.89012345e2"), ([], RNumber));
    ((bs "-0.89012345e2"), ([], RNumber));
    ((bs "0.901234567e2"), ([], RNumber));
    ((bs "-0.901234567e2"), ([], RNumber));
    ((bs "0.0123456789e2"), ([], RNumber));
    ((bs "-0.0123456789e2"), ([], RNumber));
    ((bs "0.12345678901e2"), ([], RNumber));
    ((bs "-0.12345678901e2"), ([], RNumber));
    ((bs "0.234567890123e2"), ([], RNumber));
    ((bs "-0.234567890123e2"), ([], RNumber));
    ((bs "0.3456789012345e2"), ([], RNumber));
    ((bs "-0.3456789012345e2"), ([], RNumber));
    ((bs "0.45678901234567e2"), ([], RNumber));
    ((bs "-0.45678901234567e2"), ([], RNumber));
    ((bs "0.0e2xxxxxxxx"), ((bs "xxxxxxxx"), RNumber));
    ((bs "-0.0e2xxxxxxxx"), ((bs "xxxxxxxx"), RNumber));
    ((bs "0.12e2xxxxxxxx"), ((bs "xxxxxxxx"), RNumber));
    ((bs "-0.12e2xxxxxxxx"), ((bs "xxxxxxxx"), RNumber));
    ((bs "0.345e2xxxxxxxx"), ((bs "xxxxxxxx"), RNumber));
    ((bs "-0.345e2xxxxxxxx"), ((bs "xxxxxxxx"), RNumber));
    ((bs "0.4567e2xxxxxxxx"), ((bs "xxxxxxxx"), RNumber));
    ((bs "-0.4567e2xxxxxxxx"), ((bs "xxxxxxxx"), RNumber));
    ((bs "0.56789e2xxxxxxxx"), ((bs "xxxxxxxx"), RNumber));
    ((bs "-0.56789e2xxxxxxxx"), ((bs "xxxxxxxx"), RNumber));
    ((bs "0.678901e2xxxxxxxx"), ((bs "xxxxxxxx"), RNumber));
    ((bs "-0.678901e2xxxxxxxx"), ((bs "xxxxxxxx"), RNumber));
    ((bs "0.7890123e2xxxxxxxx"), ((bs "xxxxxxxx"), RNumber));
    ((bs "-0.7890123e2xxxxxxxx"), ((bs "xxxxxxxx"), RNumber));
    ((bs "0.89012345e2xxxxxxxx"), ((bs "xxxxxxxx"), RNumber));
    ((bs "-0.89012345e2xxxxxxxx"), ((bs "xxxxxxxx"), RNumber));
    ((bs "0.901234567e2xxxxxxxx"), ((bs "xxxxxxxx"), RNumber));
    ((bs "-0.901234567e2xxxxxxxx"), ((bs "xxxxxxxx"), RNumber));
    ((bs "0.0123456789e2xxxxxxxx"), ((bs "xxxxxxxx"), RNumber));
    ((bs "-0.0123456789e2xxxxxxxx"), ((bs "xxxxxxxx"), RNumber));
    ((bs "0.12345678901e2xxxxxxxx"), ((bs "xxxxxxxx"), RNumber));
    ((bs "-0.12345678901e2xxxxxxxx"), ((bs "xxxxxxxx"), RNumber));
    ((bs "0.234567890123e2xxxxxxxx"), ((bs "xxxxxxxx"), RNumber));
    ((bs "-0.234567890123e2xxxxxxxx"), ((bs "xxxxxxxx"), RNumber));
    ((bs "0.3456789012345e2xxxxxxxx"), ((bs "xxxxxxxx"), RNumber));
    ((bs "-0.3456789012345e2xxxxxxxx"), ((bs "xxxxxxxx"), RNumber));
    ((bs "0.45678901234567e2xxxxxxxx"), ((bs "xxxxxxxx"), RNumber));
    ((bs "-0.45678901234567e2xxxxxxxx"), ((bs "xxxxxxxx"), RNumber));
    ((bs "1.000000000000"), ([], RNumber));
    ((bs "-1.000000000000"), ([], RNumber));
    ((bs "12.000000000000"), ([], RNumber));
    ((bs "-12.000000000000"), ([], RNumber));
    ((bs "123.000000000000"), ([], RNumber));
    ((bs "-123.000000000000"), ([], RNumber));
    ((bs "1234.000000000000"), ([], RNumber));
    ((bs "-1234.000000000000"), ([], RNumber));
    ((bs "12345.000000000000"), ([], RNumber));
    ((bs "-12345.000000000000"), ([], RNumber));
    ((bs "123456.000000000000"), ([], RNumber));
    ((bs "-123456.000000000000"), ([], RNumber));
    ((bs "1234567.000000000000"), ([], RNumber));
    ((bs "-1234567.000000000000"), ([], RNumber));
    ((bs "12345678.000000000000"), ([], RNumber));
    ((bs "-12345678.000000000000"), ([], RNumber));
    ((bs "0e0"), ([], RNumber));
    ((bs "-0e0"), ([], RNumber));
    ((bs "0e12"), ([], RNumber));
    ((bs "-0e12"), ([], RNumber));
    ((bs "0e345"), ([], RNumber));
    ((bs "-0e345"), ([], RNumber));
    ((bs "0e4567"), ([], RNumber));
    ((bs "-0e4567"), ([], RNumber));
    ((bs "0e56789"), ([], RNumber));
    ((bs "-0e56789"), ([], RNumber));
    ((bs "0e678901"), ([], RNumber));
    ((bs "-0e678901"), ([], RNumber));
    ((bs "0e7890123"), ([], RNumber));
    ((bs "-0e7890123"), ([], RNumber));
    ((bs "0e89012345"), ([], RNumber));
    ((bs "-0e89012345"), ([], RNumber));
    ((bs "0e9012345678"), ([], RNumber));
    ((bs "-0e9012345678"), ([], RNumber));
    ((bs "0e12345678901"), ([], RNumber));
    ((bs "-0e12345678901"), ([], RNumber));
    ((bs "1e2xxxxxxxx"), ((bs "xxxxxxxx"), RNumber));
    ((bs "-1e2xxxxxxxx"), ((bs "xxxxxxxx"), RNumber));
    ((bs "12e2xxxxxxxx"), ((bs "xxxxxxxx"), RNumber));
    ((bs "-12e2xxxxxxxx"), ((bs "xxxxxxxx"), RNumber));
    ((bs "123e2xxxxxxxx"), ((bs "xxxxxxxx"), RNumber));
    ((bs "-123e2xxxxxxxx"), ((bs "xxxxxxxx"), RNumber));
    ((bs "1234e2xxxxxxxx"), ((bs "xxxxxxxx"), RNumber));
    ((bs "-1234e2xxxxxxxx"), ((bs "xxxxxxxx"), RNumber));
    ((bs "12345e2xxxxxxxx"), ((bs "xxxxxxxx"), RNumber));
    ((bs "-12345e2xxxxxxxx"), ((bs "xxxxxxxx"), RNumber));
    ((bs "123456e2xxxxxxxx"), ((bs "xxxxxxxx"), RNumber));
    ((bs "-123456e2xxxxxxxx"), ((bs "xxxxxxxx"), RNumber));
    ((bs "1234567e2xxxxxxxx"), ((bs "xxxxxxxx"), RNumber));
    ((bs "-1234567e2xxxxxxxx"), ((bs "xxxxxxxx"), RNumber));
    ((bs "12345678e2xxxxxxxx"), ((bs "xxxxxxxx"), RNumber));
    ((bs "-12345678e2xxxxxxxx"), ((bs "xxxxxxxx"), RNumber));
    ((bs "123456789e2xxxxxxxx"), ((bs "xxxxxxxx"), RNumber));
    ((bs "-123456789e2xxxxxxxx"), ((bs "xxxxxxxx"), RNumber));
    ((bs "1234567890e2xxxxxxxx"), ((bs "xxxxxxxx"), RNumber));
    ((bs "-1234567890e2xxxxxxxx"), ((bs "xxxxxxxx"), RNumber));
    ((bs "1e1xxxxxxxx"), ((bs "xxxxxxxx"), RNumber));
    ((bs "-1e1xxxxxxxx"), ((bs "xxxxxxxx"), RNumber));
    ((bs "1e12xxxxxxxx"), ((bs "xxxxxxxx"), RNumber));
    ((bs "-1e12xxxxxxxx"), ((bs "xxxxxxxx"), RNumber));
    ((bs "1e123xxxxxxxx"), ((bs "xxxxxxxx"), RNumber));
    ((bs "-1e123xxxxxxxx"), ((bs "xxxxxxxx"), RNumber));
    ((bs "1e1234xxxxxxxx"), ((bs "xxxxxxxx"), RNumber));
    ((bs "-1e1234xxxxxxxx"), ((bs "xxxxxxxx"), RNumber));
    ((bs "1e12345xxxxxxxx"), ((bs "xxxxxxxx"), RNumber));
    ((bs "-1e12345xxxxxxxx"), ((bs "xxxxxxxx"), RNumber));
    ((bs "1e123456xxxxxxxx"), ((bs "xxxxxxxx"), RNumber));
    ((bs "-1e123456xxxxxxxx"), ((bs "xxxxxxxx"), RNumber));
    ((bs "1e1234567xxxxxxxx"), ((bs "xxxxxxxx"), RNumber));
    ((bs "-1e1234567xxxxxxxx"), ((bs "xxxxxxxx"), RNumber));
    ((bs "1e12345678xxxxxxxx"), ((bs "xxxxxxxx"), RNumber));
    ((bs "-1e12345678xxxxxxxx"), ((bs "xxxxxxxx"), RNumber));
    ((bs "1e123456789xxxxxxxx"), ((bs "xxxxxxxx"), RNumber));
    ((bs "-1e123456789xxxxxxxx"), ((bs "xxxxxxxx"), RNumber));
    ((bs "1e1234567890xxxxxxxx"), ((bs "xxxxxxxx"), RNumber));
    ((bs "-1e1234567890xxxxxxxx"), ((bs "xxxxxxxx"), RNumber));
    ((bs "1e1x"), ((bs "x"), RNumber));
    ((bs "-1e1x"), ((bs "x"), RNumber));
    ((bs "0E1"), ([], RNumber));
    ((bs "-0E1"), ([], RNumber));
    ((bs "0E2"), ([], RNumber));
    ((bs "-0E2"), ([], RNumber));
    ((bs "0E3"), ([], RNumber));
    ((bs "-0E3"), ([], RNumber));
    ((bs "0E4"), ([], RNumber));
    ((bs "-0E4"), ([], RNumber));
    ((bs "0E5"), ([], RNumber));
    ((bs "-0E5"), ([], RNumber));
    ((bs "0E6"), ([], RNumber));
    ((bs "-0E6"), ([], RNumber));
    ((bs "0E7"), ([], RNumber));
    ((bs "-0E7"), ([], RNumber));
    ((bs "0E8"), ([], RNumber));
    ((bs "-0E8"), ([], RNumber));
    ((bs "0E9"), ([], RNumber));
    ((bs "-0E9"), ([], RNumber));
    ((bs "0E1234567890"), ([], RNumber));
    ((bs "-0E1234567890"), ([], RNumber));
    ((bs "0e+1234567890"), ([], RNumber));
    ((bs "-0e+1234567890"), ([], RNumber));
    ((bs "0e-1234567890"), ([], RNumber));
    ((bs "-0e-1234567890"), ([], RNumber));
    ((bs "0E+1234567890"), ([], RNumber));
    ((bs "-0E+1234567890"), ([], RNumber));
    ((bs "0E-1234567890"), ([], RNumber));
    ((bs "-0E-1234567890"), ([], RNumber));
    ((bs "1E-1234567890"), ([], RNumber));
    ((bs "-1E-1234567890"), ([], RNumber));
    ((bs "1234567890E-1234567890"), ([], RNumber));
    ((bs "-1234567890E-1234567890"), ([], RNumber));
    ((bs "1234567890.1234567890E-1234567890"), ([], RNumber));
    ((bs "-1234567890.1234567890E-1234567890"), ([], RNumber))] = [].
Proof. vm_compute. reflexivity. Qed.
(* internal/jsonnum/jsonnum_test.go TestReadNumberZero *)
Example leaf9_conforms : num_bad
   [((bs "01"), ((bs "1"), RInteger));
    ((bs "-01"), ((bs "1"), RInteger))] = [].
Proof. vm_compute. reflexivity. Qed.
(* internal/jsonnum/jsonnum_test.go TestReadNumberErr *)
Example leaf10_conforms : num_bad
   [((bs "a"), ((bs "a"), RErr));
    ((bs "a,"), ((bs "a,"), RErr));
    ((bs "a}"), ((bs "a}"), RErr));
    ((bs "a]"), ((bs "a]"), RErr));
    ((bs "a "), ((bs "a "), RErr));
    ((bs "a	"), ((bs "a	"), RErr));
    ([97; 13], ([97; 13], RErr));
    ((bs "a{""x"":null}"), ((bs "a{""x"":null}"), RErr));
    ((bs "-"), ([], RErr));
    ((bs "-,"), ((bs ","), RErr));
    ((bs "-}"), ((bs "}"), RErr));
    ((bs "-]"), ((bs "]"), RErr));
    ((bs "- "), ((bs " "), RErr));
    ((bs "-	"), ((bs "	"), RErr));
    ([45; 13], ([13], RErr));
    ((bs "-{""x"":null}"), ((bs "{""x"":null}"), RErr));
    ((bs "0."), ([], RErr));
    ((bs "0.,"), ((bs ","), RErr));
    ((bs "0.}"), ((bs "}"), RErr));
    ((bs "0.]"), ((bs "]"), RErr));
    ((bs "0. "), ((bs " "), RErr));
    ((bs "0.	"), ((bs "	"), RErr));
    ([48; 46; 13], ([13], RErr));
    ((bs "0.{""x"":null}"), ((bs "{""x"":null}"), RErr));
    ((bs "-0."), ([], RErr));
    ((bs "-0.,"), ((bs ","), RErr));
    ((bs "-0.}"), ((bs "}"), RErr));
    ((bs "-0.]"), ((bs "]"), RErr));
    ((bs "-0. "), ((bs " "), RErr));
    ((bs "-0.	"), ((bs "	"), RErr));
    ([45; 48; 46; 13], ([13], RErr));
    ((bs "-0.{""x"":null}"), ((bs "{""x"":null}"), RErr));
    ((bs "1234567890."), ([], RErr));
    ((bs "1234567890.,"), ((bs ","), RErr));
    ((bs "1234567890.}"), ((bs "}"), RErr));
    ((bs "1234567890.]"), ((bs "]"), RErr));
    ((bs "1234567890. "), ((bs " "), RErr));
    ((bs "1234567890.	"), ((bs "	"), RErr));
    ([49; 50; 51; 52; 53; 54; 55; 56; 57; 48; 46; 13], ([13], RErr));
    ((bs "1234567890.{""x"":null}"), ((bs "{""x"":null}"), RErr));
    ((bs "0e"), ([], RErr));
    ((bs "0e,"), ((bs ","), RErr));
    ((bs "0e}"), ((bs "}"), RErr));
    ((bs "0e]"), ((bs "]"), RErr));
    ((bs "0e "), ((bs " "), RErr));
    ((bs "0e	"), ((bs "	"), RErr));
    ([48; 101; 13], ([13], RErr));
    ((bs "0e{""x"":null}"), ((bs "{""x"":null}"), RErr));
    ((bs "-0e"), ([], RErr));
    ((bs "-0e,"), ((bs ","), RErr));
    ((bs "-0e}"), ((bs "}"), RErr));
    ((bs "-0e]"), ((bs "]"), RErr));
    ((bs "-0e "), ((bs " "), RErr));
    ((bs "-0e	"), ((bs "	"), RErr));
    ([45; 48; 101; 13], ([13], RErr));
    ((bs "-0e{""x"":null}"), ((bs "{""x"":null}"), RErr));
    ((bs "1e"), ([], RErr));
    ((bs "1e,"), ((bs ","), RErr));
    ((bs "1e}"), ((bs "}"), RErr));
    ((bs "1e]"), ((bs "]"), RErr));
    ((bs "1e "), ((bs " "), RErr));
    ((bs "1e	"), ((bs "	"), RErr));
    ([49; 101; 13], ([13], RErr));
    ((bs "1e{""x"":null}"), ((bs "{""x"":null}"), RErr));
    ((bs "e1"), ((bs "e1"), RErr));
    ((bs "e1,"), ((bs "e1,"), RErr));
    ((bs "e1}"), ((bs "e1}"), RErr));
    ((bs "e1]"), ((bs "e1]"), RErr));
    ((bs "e1 "), ((bs "e1 "), RErr));
    ((bs "e1	"), ((bs "e1	"), RErr));
    ([101; 49; 13], ([101; 49; 13], RErr));
    ((bs "e1{""x"":null}"), ((bs "e1{""x"":null}"), RErr));
    ((bs "1234567890e"), ([], RErr));
    ((bs "1234567890e,"), ((bs ","), RErr));
    ((bs "1234567890e}"), ((bs "}"), RErr));
    ((bs "1234567890e]"), ((bs "]"), RErr));
    ((bs "1234567890e "), ((bs " "), RErr));
    ((bs "1234567890e	"), ((bs "	"), RErr));
    ([49; 50; 51; 52; 53; 54; 55; 56; 57; 48; 101; 13], ([13], RErr));
    ((bs "1234567890e{""x"":null}"), ((bs "{""x"":null}"), RErr));
    ((bs "1e-"), ([], RErr));
    ((bs "1e-,"), ((bs ","), RErr));
    ((bs "1e-}"), ((bs "}"), RErr));
    ((bs "1e-]"), ((bs "]"), RErr));
    ((bs "1e- "), ((bs " "), RErr));
    ((bs "1e-	"), ((bs "	"), RErr));
    ([49; 101; 45; 13], ([13], RErr));
    ((bs "1e-{""x"":null}"), ((bs "{""x"":null}"), RErr));
    ((bs "0.E0"), ((bs "E0"), RErr));
    ((bs "0.E0,"), ((bs "E0,"), RErr));
    ((bs "0.E0}"), ((bs "E0}"), RErr));
    ((bs "0.E0]"), ((bs "E0]"), RErr));
    ((bs "0.E0 "), ((bs "E0 "), RErr));
    ((bs "0.E0	"), ((bs "E0	"), RErr));
    ([48; 46; 69; 48; 13], ([69; 48; 13], RErr));
    ((bs "0.E0{""x"":null}"), ((bs "E0{""x"":null}"), RErr));
    ((bs "0.e0"), ((bs "e0"), RErr));
    ((bs "0.e0,"), ((bs "e0,"), RErr));
    ((bs "0.e0}"), ((bs "e0}"), RErr));
    ((bs "0.e0]"), ((bs "e0]"), RErr));
    ((bs "0.e0 "), ((bs "e0 "), RErr));
    ((bs "0.e0	"), ((bs "e0	"), RErr));
    ([48; 46; 101; 48; 13], ([101; 48; 13], RErr));
    ((bs "0.e0{""x"":null}"), ((bs "e0{""x"":null}"), RErr));
    ((bs "0E.0"), ((bs ".0"), RErr));
    ((bs "0E.0,"), ((bs ".0,"), RErr));
    ((bs "0E.0}"), ((bs ".0}"), RErr));
    ((bs "0E.0]"), ((bs ".0]"), RErr));
    ((bs "0E.0 "), ((bs ".0 "), RErr));
    ((bs "0E.0	"), ((bs ".0	"), RErr));
    ([48; 69; 46; 48; 13], ([46; 48; 13], RErr));
    ((bs "0E.0{""x"":null}"), ((bs ".0{""x"":null}"), RErr));
    ((bs "42.E0"), ((bs "E0"), RErr));
    ((bs "42.E0,"), ((bs "E0,"), RErr));
    ((bs "42.E0}"), ((bs "E0}"), RErr));
    ((bs "42.E0]"), ((bs "E0]"), RErr));
    ((bs "42.E0 "), ((bs "E0 "), RErr));
    ((bs "42.E0	"), ((bs "E0	"), RErr));
    ([52; 50; 46; 69; 48; 13], ([69; 48; 13], RErr));
    ((bs "42.E0{""x"":null}"), ((bs "E0{""x"":null}"), RErr));
    ((bs "42.e0"), ((bs "e0"), RErr));
    ((bs "42.e0,"), ((bs "e0,"), RErr));
    ((bs "42.e0}"), ((bs "e0}"), RErr));
    ((bs "42.e0]"), ((bs "e0]"), RErr));
    ((bs "42.e0 "), ((bs "e0 "), RErr));
    ((bs "42.e0	"), ((bs "e0	"), RErr));
    ([52; 50; 46; 101; 48; 13], ([101; 48; 13], RErr));
    ((bs "42.e0{""x"":null}"), ((bs "e0{""x"":null}"), RErr));
    ((bs "42E.0"), ((bs ".0"), RErr));
    ((bs "42E.0,"), ((bs ".0,"), RErr));
    ((bs "42E.0}"), ((bs ".0}"), RErr));
    ((bs "42E.0]"), ((bs ".0]"), RErr));
    ((bs "42E.0 "), ((bs ".0 "), RErr));
    ((bs "42E.0	"), ((bs ".0	"), RErr));
    ([52; 50; 69; 46; 48; 13], ([46; 48; 13], RErr));
    ((bs "42E.0{""x"":null}"), ((bs ".0{""x"":null}"), RErr));
    ((bs "0.1234567890e"), ([], RErr));
    ((bs "0.1234567890e,"), ((bs ","), RErr));
    ((bs "0.1234567890e}"), ((bs "}"), RErr));
    ((bs "0.1234567890e]"), ((bs "]"), RErr));
    ((bs "0.1234567890e "), ((bs " "), RErr));
    ((bs "0.1234567890e	"), ((bs "	"), RErr));
    ([48; 46; 49; 50; 51; 52; 53; 54; 55; 56; 57; 48; 101; 13], ([13], RErr));
    ((bs "0.1234567890e{""x"":null}"), ((bs "{""x"":null}"), RErr));
    ((bs "1234567890.1234567890e"), ([], RErr));
    ((bs "1234567890.1234567890e,"), ((bs ","), RErr));
    ((bs "1234567890.1234567890e}"), ((bs "}"), RErr));
    ((bs "1234567890.1234567890e]"), ((bs "]"), RErr));
    ((bs "1234567890.1234567890e "), ((bs " "), RErr));
    ((bs "1234567890.1234567890e	"), ((bs "	"), RErr));
    ([49; 50; 51; 52; 53; 54; 55; 56; 57; 48; 46; 49; 50; 51; 52; 53; 54; 55; 56; 57; 48; 101; 13], ([13], RErr));
    ((bs "1234567890.1234567890e{""x"":null}"), ((bs "{""x"":null}"), RErr))] = [].
Proof. vm_compute. reflexivity. Qed.
(* internal/unescape/unescape_test.go *)
Example leaf11_conforms : unesc_bad
   [([], []);
    ((bs "a"), (bs "a"));
    ([208; 182], [208; 182]);
    ((bs "\\"), (bs "\"));
    ((bs "\/"), (bs "/"));
    ((bs "\"""), (bs """"));
    ((bs "\b"), [8]);
    ((bs "\f"), [12]);
    ((bs "\n"), (bs "
"));
    ((bs "\r"), [13]);
    ((bs "\t"), (bs "	"));
    ((bs "\r\n\r\n\tabc\n."), [13; 10; 13; 10; 9; 97; 98; 99; 10; 46]);
    ((bs "\u0436"), [208; 182]);
    ((bs "\uffa2"), [239; 190; 162]);
    ((bs "\ufc00"), [239; 176; 128]);
    ((bs "\u002f"), (bs "/"));
    ((bs "\uAAAA"), [234; 170; 170]);
    ((bs "\uAAaa"), [234; 170; 170]);
    ((bs "Lorem ipsum dolor sit amet, consectetur adipiscing elit, sed doe."), (bs "Lorem ipsum dolor sit amet, consectetur adipiscing elit, sed doe."));
    ((bs "\ra\nb\tc\td\\e\\f\ng"), [13; 97; 10; 98; 9; 99; 9; 100; 92; 101; 92; 102; 10; 103]);
    ((bs "\r12\n12\t12\t12\\12\\12\n12"), [13; 49; 50; 10; 49; 50; 9; 49; 50; 9; 49; 50; 92; 49; 50; 92; 49; 50; 10; 49; 50]);
    ((bs "\r123\n123\t123\t123\\123\\123\n123"), [13; 49; 50; 51; 10; 49; 50; 51; 9; 49; 50; 51; 9; 49; 50; 51; 92; 49; 50; 51; 92; 49; 50; 51; 10; 49; 50; 51]);
    ((bs "\r1234\n1234\t1234\t1234\\1234\\1234\n1234"), [13; 49; 50; 51; 52; 10; 49; 50; 51; 52; 9; 49; 50; 51; 52; 9; 49; 50; 51; 52; 92; 49; 50; 51; 52; 92; 49; 50; 51; 52; 10; 49; 50; 51; 52]);
    ((bs "\r12345\n12345\t12345\t12345\\12345\\12345\n12345"), [13; 49; 50; 51; 52; 53; 10; 49; 50; 51; 52; 53; 9; 49; 50; 51; 52; 53; 9; 49; 50; 51; 52; 53; 92; 49; 50; 51; 52; 53; 92; 49; 50; 51; 52; 53; 10; 49; 50; 51; 52; 53]);
    ((bs "\r123456\n"), [13; 49; 50; 51; 52; 53; 54; 10]);
    ((bs "\r1234567\n"), [13; 49; 50; 51; 52; 53; 54; 55; 10]);
    ((bs "\r12345678\n"), [13; 49; 50; 51; 52; 53; 54; 55; 56; 10]);
    ((bs "12345678"), (bs "12345678"));
    ((bs "123456789"), (bs "123456789"));
    ((bs "12345678\n123456789"), (bs "12345678
123456789"));
    ((bs "Lorem ipsum dolor sit\n"), (bs "Lorem ipsum dolor sit
"));
    ((bs "Lorem ipsum dolor sit amet, consectetur adipiscing elit, sed doe.\n"), (bs "Lorem ipsum dolor sit amet, consectetur adipiscing elit, sed doe.
"));
    ([108; 97; 116; 105; 110; 32; 112; 114; 101; 102; 105; 120; 32; 227; 130; 162; 227; 131; 145; 227; 131; 188; 227; 131; 136; 32; 233; 163; 155; 232; 161; 140; 232; 136; 185; 32; 92; 114; 92; 110; 32; 115; 111; 109; 101; 32; 108; 97; 116; 105; 110; 32; 115; 117; 102; 102; 105; 120], [108; 97; 116; 105; 110; 32; 112; 114; 101; 102; 105; 120; 32; 227; 130; 162; 227; 131; 145; 227; 131; 188; 227; 131; 136; 32; 233; 163; 155; 232; 161; 140; 232; 136; 185; 32; 13; 10; 32; 115; 111; 109; 101; 32; 108; 97; 116; 105; 110; 32; 115; 117; 102; 102; 105; 120]);
    ((bs "\uD800"), [239; 191; 189]);
    ((bs "\uDFFF"), [239; 191; 189]);
    ((bs "\uFFFF"), [239; 191; 191])] = [].
Proof. vm_compute. reflexivity. Qed.
