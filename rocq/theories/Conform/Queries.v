(** Written by tools/conform.py. The table queryTests, /repo/codesearch/index/regexp_test.go:12-83:
    what regexp/syntax.Parse makes of the expression, and the query it is to give, as written by
    Query.String. *)
From Verif Require Import Model.Base Model.Syntax Model.GoRegexp.
Local Open Scope N_scope.

Definition query_tests : list (gre * str) := [
  (* Abcdef   ''Abc'' ''bcd'' ''cde'' ''def'' *)
  ((GLiteral false [65; 98; 99; 100; 101; 102]), [34; 65; 98; 99; 34; 32; 34; 98; 99; 100; 34; 32; 34; 99; 100; 101; 34; 32; 34; 100; 101; 102; 34]);
  (* (abc)(def)   ''abc'' ''bcd'' ''cde'' ''def'' *)
  ((GConcat [(GCapture 1%nat (GLiteral false [97; 98; 99])); (GCapture 2%nat (GLiteral false [100; 101; 102]))]), [34; 97; 98; 99; 34; 32; 34; 98; 99; 100; 34; 32; 34; 99; 100; 101; 34; 32; 34; 100; 101; 102; 34]);
  (* abc.*(def|ghi)   ''abc'' (''def''|''ghi'') *)
  ((GConcat [(GLiteral false [97; 98; 99]); (GStar false GAnyNotNL); (GCapture 1%nat (GAlternate [(GLiteral false [100; 101; 102]); (GLiteral false [103; 104; 105])]))]), [34; 97; 98; 99; 34; 32; 40; 34; 100; 101; 102; 34; 124; 34; 103; 104; 105; 34; 41]);
  (* abc(def|ghi)   ''abc'' (''bcd'' ''cde'' ''def'')|(''bcg'' ''cgh'' ''ghi'') *)
  ((GConcat [(GLiteral false [97; 98; 99]); (GCapture 1%nat (GAlternate [(GLiteral false [100; 101; 102]); (GLiteral false [103; 104; 105])]))]), [34; 97; 98; 99; 34; 32; 40; 34; 98; 99; 100; 34; 32; 34; 99; 100; 101; 34; 32; 34; 100; 101; 102; 34; 41; 124; 40; 34; 98; 99; 103; 34; 32; 34; 99; 103; 104; 34; 32; 34; 103; 104; 105; 34; 41]);
  (* a+hello   ''ahe'' ''ell'' ''hel'' ''llo'' *)
  ((GConcat [(GPlus false (GLiteral false [97])); (GLiteral false [104; 101; 108; 108; 111])]), [34; 97; 104; 101; 34; 32; 34; 101; 108; 108; 34; 32; 34; 104; 101; 108; 34; 32; 34; 108; 108; 111; 34]);
  (* (a+hello|b+world)   (''ahe'' ''ell'' ''hel'' ''llo'')|(''bwo'' ''orl'' ''rld'' ''wor'') *)
  ((GCapture 1%nat (GAlternate [(GConcat [(GPlus false (GLiteral false [97])); (GLiteral false [104; 101; 108; 108; 111])]); (GConcat [(GPlus false (GLiteral false [98])); (GLiteral false [119; 111; 114; 108; 100])])])), [40; 34; 97; 104; 101; 34; 32; 34; 101; 108; 108; 34; 32; 34; 104; 101; 108; 34; 32; 34; 108; 108; 111; 34; 41; 124; 40; 34; 98; 119; 111; 34; 32; 34; 111; 114; 108; 34; 32; 34; 114; 108; 100; 34; 32; 34; 119; 111; 114; 34; 41]);
  (* a*bbb   ''bbb'' *)
  ((GConcat [(GStar false (GLiteral false [97])); (GLiteral false [98; 98; 98])]), [34; 98; 98; 98; 34]);
  (* a?bbb   ''bbb'' *)
  ((GConcat [(GQuest false (GLiteral false [97])); (GLiteral false [98; 98; 98])]), [34; 98; 98; 98; 34]);
  (* (bbb)a?   ''bbb'' *)
  ((GConcat [(GCapture 1%nat (GLiteral false [98; 98; 98])); (GQuest false (GLiteral false [97]))]), [34; 98; 98; 98; 34]);
  (* (bbb)a*   ''bbb'' *)
  ((GConcat [(GCapture 1%nat (GLiteral false [98; 98; 98])); (GStar false (GLiteral false [97]))]), [34; 98; 98; 98; 34]);
  (* ^abc   ''abc'' *)
  ((GConcat [(GZero ZBeginText); (GLiteral false [97; 98; 99])]), [34; 97; 98; 99; 34]);
  (* abc$   ''abc'' *)
  ((GConcat [(GLiteral false [97; 98; 99]); (GZero ZEndText)]), [34; 97; 98; 99; 34]);
  (* ab[cde]f   (''abc'' ''bcf'')|(''abd'' ''bdf'')|(''abe'' ''bef'') *)
  ((GConcat [(GLiteral false [97; 98]); (GClass [99; 101]); (GLiteral false [102])]), [40; 34; 97; 98; 99; 34; 32; 34; 98; 99; 102; 34; 41; 124; 40; 34; 97; 98; 100; 34; 32; 34; 98; 100; 102; 34; 41; 124; 40; 34; 97; 98; 101; 34; 32; 34; 98; 101; 102; 34; 41]);
  (* (abc|bac)de   ''cde'' (''abc'' ''bcd'')|(''acd'' ''bac'') *)
  ((GConcat [(GCapture 1%nat (GAlternate [(GLiteral false [97; 98; 99]); (GLiteral false [98; 97; 99])])); (GLiteral false [100; 101])]), [34; 99; 100; 101; 34; 32; 40; 34; 97; 98; 99; 34; 32; 34; 98; 99; 100; 34; 41; 124; 40; 34; 97; 99; 100; 34; 32; 34; 98; 97; 99; 34; 41]);
  (* ab[^cde]f   + *)
  ((GConcat [(GLiteral false [97; 98]); (GClass [0; 98; 102; 1114111]); (GLiteral false [102])]), [43]);
  (* ab.f   + *)
  ((GConcat [(GLiteral false [97; 98]); GAnyNotNL; (GLiteral false [102])]), [43]);
  (* .   + *)
  (GAnyNotNL, [43]);
  (* ()   + *)
  ((GCapture 1%nat (GZero ZEmpty)), [43]);
  (* [^\s\S]   - *)
  ((GClass []), [45]);
  (* (abc|abc)   ''abc'' *)
  ((GCapture 1%nat (GConcat [(GLiteral false [97; 98; 99]); (GZero ZEmpty)])), [34; 97; 98; 99; 34]);
  (* (ab|ab)c   ''abc'' *)
  ((GConcat [(GCapture 1%nat (GConcat [(GLiteral false [97; 98]); (GZero ZEmpty)])); (GLiteral false [99])]), [34; 97; 98; 99; 34]);
  (* ab(cab|cat)   ''abc'' ''bca'' (''cab''|''cat'') *)
  ((GConcat [(GLiteral false [97; 98]); (GCapture 1%nat (GConcat [(GLiteral false [99; 97]); (GClass [98; 98; 116; 116])]))]), [34; 97; 98; 99; 34; 32; 34; 98; 99; 97; 34; 32; 40; 34; 99; 97; 98; 34; 124; 34; 99; 97; 116; 34; 41]);
  (* (z*(abc|def)z* )(z*(abc|def)z* )   (''abc''|''def'') *)
  ((GConcat [(GCapture 1%nat (GConcat [(GStar false (GLiteral false [122])); (GCapture 2%nat (GAlternate [(GLiteral false [97; 98; 99]); (GLiteral false [100; 101; 102])])); (GStar false (GLiteral false [122]))])); (GCapture 3%nat (GConcat [(GStar false (GLiteral false [122])); (GCapture 4%nat (GAlternate [(GLiteral false [97; 98; 99]); (GLiteral false [100; 101; 102])])); (GStar false (GLiteral false [122]))]))]), [40; 34; 97; 98; 99; 34; 124; 34; 100; 101; 102; 34; 41]);
  (* (z*abcz*defz* )|(z*abcz*defz* )   ''abc'' ''def'' *)
  ((GAlternate [(GCapture 1%nat (GConcat [(GStar false (GLiteral false [122])); (GLiteral false [97; 98; 99]); (GStar false (GLiteral false [122])); (GLiteral false [100; 101; 102]); (GStar false (GLiteral false [122]))])); (GCapture 2%nat (GConcat [(GStar false (GLiteral false [122])); (GLiteral false [97; 98; 99]); (GStar false (GLiteral false [122])); (GLiteral false [100; 101; 102]); (GStar false (GLiteral false [122]))]))]), [34; 97; 98; 99; 34; 32; 34; 100; 101; 102; 34]);
  (* (z*abcz*defz*(ghi|jkl)z* )|(z*abcz*defz*(mno|prs)z* )   ''abc'' ''def'' (''ghi''|''jkl''|''mno''|''prs'') *)
  ((GAlternate [(GCapture 1%nat (GConcat [(GStar false (GLiteral false [122])); (GLiteral false [97; 98; 99]); (GStar false (GLiteral false [122])); (GLiteral false [100; 101; 102]); (GStar false (GLiteral false [122])); (GCapture 2%nat (GAlternate [(GLiteral false [103; 104; 105]); (GLiteral false [106; 107; 108])])); (GStar false (GLiteral false [122]))])); (GCapture 3%nat (GConcat [(GStar false (GLiteral false [122])); (GLiteral false [97; 98; 99]); (GStar false (GLiteral false [122])); (GLiteral false [100; 101; 102]); (GStar false (GLiteral false [122])); (GCapture 4%nat (GAlternate [(GLiteral false [109; 110; 111]); (GLiteral false [112; 114; 115])])); (GStar false (GLiteral false [122]))]))]), [34; 97; 98; 99; 34; 32; 34; 100; 101; 102; 34; 32; 40; 34; 103; 104; 105; 34; 124; 34; 106; 107; 108; 34; 124; 34; 109; 110; 111; 34; 124; 34; 112; 114; 115; 34; 41]);
  (* (z*(abcz*def)|(ghiz*jkl)z* )|(z*(mnoz*prs)|(tuvz*wxy)z* )   (''abc'' ''def'')|(''ghi'' ''jkl'')|(''mno'' ''prs'')|(''tuv'' ''wxy'') *)
  ((GAlternate [(GCapture 1%nat (GAlternate [(GConcat [(GStar false (GLiteral false [122])); (GCapture 2%nat (GConcat [(GLiteral false [97; 98; 99]); (GStar false (GLiteral false [122])); (GLiteral false [100; 101; 102])]))]); (GConcat [(GCapture 3%nat (GConcat [(GLiteral false [103; 104; 105]); (GStar false (GLiteral false [122])); (GLiteral false [106; 107; 108])])); (GStar false (GLiteral false [122]))])])); (GCapture 4%nat (GAlternate [(GConcat [(GStar false (GLiteral false [122])); (GCapture 5%nat (GConcat [(GLiteral false [109; 110; 111]); (GStar false (GLiteral false [122])); (GLiteral false [112; 114; 115])]))]); (GConcat [(GCapture 6%nat (GConcat [(GLiteral false [116; 117; 118]); (GStar false (GLiteral false [122])); (GLiteral false [119; 120; 121])])); (GStar false (GLiteral false [122]))])]))]), [40; 34; 97; 98; 99; 34; 32; 34; 100; 101; 102; 34; 41; 124; 40; 34; 103; 104; 105; 34; 32; 34; 106; 107; 108; 34; 41; 124; 40; 34; 109; 110; 111; 34; 32; 34; 112; 114; 115; 34; 41; 124; 40; 34; 116; 117; 118; 34; 32; 34; 119; 120; 121; 34; 41]);
  (* (z*abcz*defz* )(z*(ghi|jkl)z* )   ''abc'' ''def'' (''ghi''|''jkl'') *)
  ((GConcat [(GCapture 1%nat (GConcat [(GStar false (GLiteral false [122])); (GLiteral false [97; 98; 99]); (GStar false (GLiteral false [122])); (GLiteral false [100; 101; 102]); (GStar false (GLiteral false [122]))])); (GCapture 2%nat (GConcat [(GStar false (GLiteral false [122])); (GCapture 3%nat (GAlternate [(GLiteral false [103; 104; 105]); (GLiteral false [106; 107; 108])])); (GStar false (GLiteral false [122]))]))]), [34; 97; 98; 99; 34; 32; 34; 100; 101; 102; 34; 32; 40; 34; 103; 104; 105; 34; 124; 34; 106; 107; 108; 34; 41]);
  (* (z*abcz*defz* )|(z*(ghi|jkl)z* )   (''ghi''|''jkl'')|(''abc'' ''def'') *)
  ((GAlternate [(GCapture 1%nat (GConcat [(GStar false (GLiteral false [122])); (GLiteral false [97; 98; 99]); (GStar false (GLiteral false [122])); (GLiteral false [100; 101; 102]); (GStar false (GLiteral false [122]))])); (GCapture 2%nat (GConcat [(GStar false (GLiteral false [122])); (GCapture 3%nat (GAlternate [(GLiteral false [103; 104; 105]); (GLiteral false [106; 107; 108])])); (GStar false (GLiteral false [122]))]))]), [40; 34; 103; 104; 105; 34; 124; 34; 106; 107; 108; 34; 41; 124; 40; 34; 97; 98; 99; 34; 32; 34; 100; 101; 102; 34; 41]);
  (* [ab][cd][ef]   (''ace''|''acf''|''ade''|''adf''|''bce''|''bcf''|''bde''|''bdf'') *)
  ((GConcat [(GClass [97; 98]); (GClass [99; 100]); (GClass [101; 102])]), [40; 34; 97; 99; 101; 34; 124; 34; 97; 99; 102; 34; 124; 34; 97; 100; 101; 34; 124; 34; 97; 100; 102; 34; 124; 34; 98; 99; 101; 34; 124; 34; 98; 99; 102; 34; 124; 34; 98; 100; 101; 34; 124; 34; 98; 100; 102; 34; 41]);
  (* ab[cd]e   (''abc'' ''bce'')|(''abd'' ''bde'') *)
  ((GConcat [(GLiteral false [97; 98]); (GClass [99; 100]); (GLiteral false [101])]), [40; 34; 97; 98; 99; 34; 32; 34; 98; 99; 101; 34; 41; 124; 40; 34; 97; 98; 100; 34; 32; 34; 98; 100; 101; 34; 41]);
  (* (a|ab)cde   ''cde'' (''abc'' ''bcd'')|(''acd'') *)
  ((GConcat [(GCapture 1%nat (GConcat [(GLiteral false [97]); (GAlternate [(GZero ZEmpty); (GLiteral false [98])])])); (GLiteral false [99; 100; 101])]), [34; 99; 100; 101; 34; 32; 40; 34; 97; 98; 99; 34; 32; 34; 98; 99; 100; 34; 41; 124; 40; 34; 97; 99; 100; 34; 41]);
  (* (a|b|c|d)(ef|g|hi|j)   + *)
  ((GConcat [(GCapture 1%nat (GClass [97; 100])); (GCapture 2%nat (GAlternate [(GLiteral false [101; 102]); (GLiteral false [103]); (GLiteral false [104; 105]); (GLiteral false [106])]))]), [43]);
  (* (?s).   + *)
  (GAny, [43]);
  (* (?i)a~~   (''A~~''|''a~~'') *)
  ((GLiteral true [65; 126; 126]), [40; 34; 65; 126; 126; 34; 124; 34; 97; 126; 126; 34; 41]);
  (* (?i)ab~   (''AB~''|''Ab~''|''aB~''|''ab~'') *)
  ((GLiteral true [65; 66; 126]), [40; 34; 65; 66; 126; 34; 124; 34; 65; 98; 126; 34; 124; 34; 97; 66; 126; 34; 124; 34; 97; 98; 126; 34; 41]);
  (* (?i)abc   (''ABC''|''ABc''|''AbC''|''Abc''|''aBC''|''aBc''|''abC''|''abc'') *)
  ((GLiteral true [65; 66; 67]), [40; 34; 65; 66; 67; 34; 124; 34; 65; 66; 99; 34; 124; 34; 65; 98; 67; 34; 124; 34; 65; 98; 99; 34; 124; 34; 97; 66; 67; 34; 124; 34; 97; 66; 99; 34; 124; 34; 97; 98; 67; 34; 124; 34; 97; 98; 99; 34; 41]);
  (* (?i)abc|def   (''ABC''|''ABc''|''AbC''|''Abc''|''DEF''|''DEf''|''DeF''|''Def''|''aBC''|''aBc''|''abC''|''abc''|''dEF''|''dEf''|''deF''|''def'') *)
  ((GAlternate [(GLiteral true [65; 66; 67]); (GLiteral true [68; 69; 70])]), [40; 34; 65; 66; 67; 34; 124; 34; 65; 66; 99; 34; 124; 34; 65; 98; 67; 34; 124; 34; 65; 98; 99; 34; 124; 34; 68; 69; 70; 34; 124; 34; 68; 69; 102; 34; 124; 34; 68; 101; 70; 34; 124; 34; 68; 101; 102; 34; 124; 34; 97; 66; 67; 34; 124; 34; 97; 66; 99; 34; 124; 34; 97; 98; 67; 34; 124; 34; 97; 98; 99; 34; 124; 34; 100; 69; 70; 34; 124; 34; 100; 69; 102; 34; 124; 34; 100; 101; 70; 34; 124; 34; 100; 101; 102; 34; 41]);
  (* (?i)abcd   (''ABC''|''ABc''|''AbC''|''Abc''|''aBC''|''aBc''|''abC''|''abc'') (''BCD''|''BCd''|''BcD''|''Bcd''|''bCD''|''bCd''|''bcD''|''bcd'') *)
  ((GLiteral true [65; 66; 67; 68]), [40; 34; 65; 66; 67; 34; 124; 34; 65; 66; 99; 34; 124; 34; 65; 98; 67; 34; 124; 34; 65; 98; 99; 34; 124; 34; 97; 66; 67; 34; 124; 34; 97; 66; 99; 34; 124; 34; 97; 98; 67; 34; 124; 34; 97; 98; 99; 34; 41; 32; 40; 34; 66; 67; 68; 34; 124; 34; 66; 67; 100; 34; 124; 34; 66; 99; 68; 34; 124; 34; 66; 99; 100; 34; 124; 34; 98; 67; 68; 34; 124; 34; 98; 67; 100; 34; 124; 34; 98; 99; 68; 34; 124; 34; 98; 99; 100; 34; 41]);
  (* (?i)abc|abc   (''ABC''|''ABc''|''AbC''|''Abc''|''aBC''|''aBc''|''abC''|''abc'') *)
  ((GConcat [(GLiteral true [65; 66; 67]); (GZero ZEmpty)]), [40; 34; 65; 66; 67; 34; 124; 34; 65; 66; 99; 34; 124; 34; 65; 98; 67; 34; 124; 34; 65; 98; 99; 34; 124; 34; 97; 66; 67; 34; 124; 34; 97; 66; 99; 34; 124; 34; 97; 98; 67; 34; 124; 34; 97; 98; 99; 34; 41]);
  (* \b   + *)
  ((GZero ZWord), [43]);
  (* \B   + *)
  ((GZero ZNoWord), [43]);
  (* \babc   ''abc'' *)
  ((GConcat [(GZero ZWord); (GLiteral false [97; 98; 99])]), [34; 97; 98; 99; 34]);
  (* \Babc   ''abc'' *)
  ((GConcat [(GZero ZNoWord); (GLiteral false [97; 98; 99])]), [34; 97; 98; 99; 34]);
  (* abc\b   ''abc'' *)
  ((GConcat [(GLiteral false [97; 98; 99]); (GZero ZWord)]), [34; 97; 98; 99; 34]);
  (* abc\B   ''abc'' *)
  ((GConcat [(GLiteral false [97; 98; 99]); (GZero ZNoWord)]), [34; 97; 98; 99; 34]);
  (* ab\bc   ''abc'' *)
  ((GConcat [(GLiteral false [97; 98]); (GZero ZWord); (GLiteral false [99])]), [34; 97; 98; 99; 34]);
  (* ab\Bc   ''abc'' *)
  ((GConcat [(GLiteral false [97; 98]); (GZero ZNoWord); (GLiteral false [99])]), [34; 97; 98; 99; 34])
].
