(** Written by tools/conform.py. The table matchTests, /repo/codesearch/regexp/regexp_test.go:40-149:
    what regexp/syntax.Parse makes of (?m) and the expression, the text, and the numbers of the lines to
    be reported. *)
From Verif Require Import Model.Base Model.Syntax Model.GoRegexp.
Local Open Scope N_scope.

Definition match_tests : list (gre * bytes * list nat) := [
  (* a+   abc<a>def<a>ghi<a> *)
  ((GPlus false (GLiteral false [97])), [97; 98; 99; 10; 100; 101; 102; 10; 103; 104; 105; 10], [1]%nat);
  (*     *)
  ((GZero ZEmpty), [], [1]%nat);
  (* ^abcdefg   abcdefg *)
  ((GConcat [(GZero ZBeginLine); (GLiteral false [97; 98; 99; 100; 101; 102; 103])]), [97; 98; 99; 100; 101; 102; 103], [1]%nat);
  (* a+   baaab *)
  ((GPlus false (GLiteral false [97])), [98; 97; 97; 97; 98], [1]%nat);
  (* abcd..   abcdef *)
  ((GConcat [(GLiteral false [97; 98; 99; 100]); GAnyNotNL; GAnyNotNL]), [97; 98; 99; 100; 101; 102], [1]%nat);
  (* a   a *)
  ((GLiteral false [97]), [97], [1]%nat);
  (* x   y *)
  ((GLiteral false [120]), [121], []%nat);
  (* b   abc *)
  ((GLiteral false [98]), [97; 98; 99], [1]%nat);
  (* .   a *)
  (GAnyNotNL, [97], [1]%nat);
  (* .*   abcdef *)
  ((GStar false GAnyNotNL), [97; 98; 99; 100; 101; 102], [1]%nat);
  (* ^   abcde *)
  ((GZero ZBeginLine), [97; 98; 99; 100; 101], [1]%nat);
  (* $   abcde *)
  ((GZero ZEndLine), [97; 98; 99; 100; 101], [1]%nat);
  (* ^abcd$   abcd *)
  ((GConcat [(GZero ZBeginLine); (GLiteral false [97; 98; 99; 100]); (GZero ZEndLine)]), [97; 98; 99; 100], [1]%nat);
  (* ^bcd'   abcdef *)
  ((GConcat [(GZero ZBeginLine); (GLiteral false [98; 99; 100; 39])]), [97; 98; 99; 100; 101; 102], []%nat);
  (* ^abcd$   abcde *)
  ((GConcat [(GZero ZBeginLine); (GLiteral false [97; 98; 99; 100]); (GZero ZEndLine)]), [97; 98; 99; 100; 101], []%nat);
  (* a+   baaab *)
  ((GPlus false (GLiteral false [97])), [98; 97; 97; 97; 98], [1]%nat);
  (* a*   baaab *)
  ((GStar false (GLiteral false [97])), [98; 97; 97; 97; 98], [1]%nat);
  (* [a-z]+   abcd *)
  ((GPlus false (GClass [97; 122])), [97; 98; 99; 100], [1]%nat);
  (* [^a-z]+   ab1234cd *)
  ((GPlus false (GClass [0; 96; 123; 1114111])), [97; 98; 49; 50; 51; 52; 99; 100], [1]%nat);
  (* [a\-\]z]+   az]-bcz *)
  ((GPlus false (GClass [45; 45; 93; 93; 97; 97; 122; 122])), [97; 122; 93; 45; 98; 99; 122], [1]%nat);
  (* [^\n]+   abcd<a> *)
  ((GPlus false (GClass [0; 9; 11; 1114111])), [97; 98; 99; 100; 10], [1]%nat);
  (* [<65e5><672c><8a9e>]+   <65e5><672c><8a9e><65e5><672c><8a9e> *)
  ((GPlus false (GClass [26085; 26085; 26412; 26412; 35486; 35486])), [230; 151; 165; 230; 156; 172; 232; 170; 158; 230; 151; 165; 230; 156; 172; 232; 170; 158], [1]%nat);
  (* <65e5><672c><8a9e>+   <65e5><672c><8a9e> *)
  ((GConcat [(GLiteral false [26085; 26412]); (GPlus false (GLiteral false [35486]))]), [230; 151; 165; 230; 156; 172; 232; 170; 158], [1]%nat);
  (* <65e5><672c><8a9e>+   <65e5><672c><8a9e><8a9e><8a9e><8a9e> *)
  ((GConcat [(GLiteral false [26085; 26412]); (GPlus false (GLiteral false [35486]))]), [230; 151; 165; 230; 156; 172; 232; 170; 158; 232; 170; 158; 232; 170; 158; 232; 170; 158], [1]%nat);
  (* ()    *)
  ((GCapture 1%nat (GZero ZEmpty)), [], [1]%nat);
  (* (a)   a *)
  ((GCapture 1%nat (GLiteral false [97])), [97], [1]%nat);
  (* (.)(.)   <65e5>a *)
  ((GConcat [(GCapture 1%nat GAnyNotNL); (GCapture 2%nat GAnyNotNL)]), [230; 151; 165; 97], [1]%nat);
  (* (.* )    *)
  ((GCapture 1%nat (GStar false GAnyNotNL)), [], [1]%nat);
  (* (.* )   abcd *)
  ((GCapture 1%nat (GStar false GAnyNotNL)), [97; 98; 99; 100], [1]%nat);
  (* (..)(..)   abcd *)
  ((GConcat [(GCapture 1%nat (GConcat [GAnyNotNL; GAnyNotNL])); (GCapture 2%nat (GConcat [GAnyNotNL; GAnyNotNL]))]), [97; 98; 99; 100], [1]%nat);
  (* (([^xyz]* )(d))   abcd *)
  ((GCapture 1%nat (GConcat [(GCapture 2%nat (GStar false (GClass [0; 119; 123; 1114111]))); (GCapture 3%nat (GLiteral false [100]))])), [97; 98; 99; 100], [1]%nat);
  (* ((a|b|c)*(d))   abcd *)
  ((GCapture 1%nat (GConcat [(GStar false (GCapture 2%nat (GClass [97; 99]))); (GCapture 3%nat (GLiteral false [100]))])), [97; 98; 99; 100], [1]%nat);
  (* (((a|b|c)* )(d))   abcd *)
  ((GCapture 1%nat (GConcat [(GCapture 2%nat (GStar false (GCapture 3%nat (GClass [97; 99])))); (GCapture 4%nat (GLiteral false [100]))])), [97; 98; 99; 100], [1]%nat);
  (* \a\f\r\t\v   <7><c><d><9><b> *)
  ((GLiteral false [7; 12; 13; 9; 11]), [7; 12; 13; 9; 11], [1]%nat);
  (* [\a\f\n\r\t\v]+   <7><c><d><9><b> *)
  ((GPlus false (GClass [7; 7; 9; 13])), [7; 12; 13; 9; 11], [1]%nat);
  (* a*(|(b))c*   aacc *)
  ((GConcat [(GStar false (GLiteral false [97])); (GCapture 1%nat (GAlternate [(GZero ZEmpty); (GCapture 2%nat (GLiteral false [98]))])); (GStar false (GLiteral false [99]))]), [97; 97; 99; 99], [1]%nat);
  (* (.* ).*   ab *)
  ((GConcat [(GCapture 1%nat (GStar false GAnyNotNL)); (GStar false GAnyNotNL)]), [97; 98], [1]%nat);
  (* [.]   . *)
  ((GLiteral false [46]), [46], [1]%nat);
  (* /$   /abc/ *)
  ((GConcat [(GLiteral false [47]); (GZero ZEndLine)]), [47; 97; 98; 99; 47], [1]%nat);
  (* /$   /abc *)
  ((GConcat [(GLiteral false [47]); (GZero ZEndLine)]), [47; 97; 98; 99], []%nat);
  (* .   abc *)
  (GAnyNotNL, [97; 98; 99], [1]%nat);
  (* (.)   abc *)
  ((GCapture 1%nat GAnyNotNL), [97; 98; 99], [1]%nat);
  (* .(.)   abcd *)
  ((GConcat [GAnyNotNL; (GCapture 1%nat GAnyNotNL)]), [97; 98; 99; 100], [1]%nat);
  (* ab*   abbaab *)
  ((GConcat [(GLiteral false [97]); (GStar false (GLiteral false [98]))]), [97; 98; 98; 97; 97; 98], [1]%nat);
  (* a(b* )   abbaab *)
  ((GConcat [(GLiteral false [97]); (GCapture 1%nat (GStar false (GLiteral false [98])))]), [97; 98; 98; 97; 97; 98], [1]%nat);
  (* ab$   cab *)
  ((GConcat [(GLiteral false [97; 98]); (GZero ZEndLine)]), [99; 97; 98], [1]%nat);
  (* axxb$   axxcb *)
  ((GConcat [(GLiteral false [97; 120; 120; 98]); (GZero ZEndLine)]), [97; 120; 120; 99; 98], []%nat);
  (* data   daXY data *)
  ((GLiteral false [100; 97; 116; 97]), [100; 97; 88; 89; 32; 100; 97; 116; 97], [1]%nat);
  (* da(.)a$   daXY data *)
  ((GConcat [(GLiteral false [100; 97]); (GCapture 1%nat GAnyNotNL); (GLiteral false [97]); (GZero ZEndLine)]), [100; 97; 88; 89; 32; 100; 97; 116; 97], [1]%nat);
  (* zx+   zzx *)
  ((GConcat [(GLiteral false [122]); (GPlus false (GLiteral false [120]))]), [122; 122; 120], [1]%nat);
  (* ab$   abcab *)
  ((GConcat [(GLiteral false [97; 98]); (GZero ZEndLine)]), [97; 98; 99; 97; 98], [1]%nat);
  (* (aa)*$   a *)
  ((GConcat [(GStar false (GCapture 1%nat (GLiteral false [97; 97]))); (GZero ZEndLine)]), [97], [1]%nat);
  (* (?:.|(?:.a))    *)
  ((GConcat [GAnyNotNL; (GAlternate [(GZero ZEmpty); (GLiteral false [97])])]), [], []%nat);
  (* (?:A(?:A|a))   Aa *)
  ((GConcat [(GLiteral false [65]); (GLiteral true [65])]), [65; 97], [1]%nat);
  (* (?:A|(?:A|a))   a *)
  ((GLiteral true [65]), [97], [1]%nat);
  (* (a){0}    *)
  ((GRepeat false 0%nat (Some 0%nat) (GCapture 1%nat (GLiteral false [97]))), [], [1]%nat);
  (* \b   x *)
  ((GZero ZWord), [120], [1]%nat);
  (* \b   xx *)
  ((GZero ZWord), [120; 120], [1]%nat);
  (* \b   x y *)
  ((GZero ZWord), [120; 32; 121], [1]%nat);
  (* \b   xx yy *)
  ((GZero ZWord), [120; 120; 32; 121; 121], [1]%nat);
  (* \B   x *)
  ((GZero ZNoWord), [120], []%nat);
  (* \B   xx *)
  ((GZero ZNoWord), [120; 120], [1]%nat);
  (* \B   x y *)
  ((GZero ZNoWord), [120; 32; 121], []%nat);
  (* \B   xx yy *)
  ((GZero ZNoWord), [120; 120; 32; 121; 121], [1]%nat);
  (* (?im)^[abc]+$   abcABC *)
  ((GConcat [(GZero ZBeginLine); (GPlus false (GClass [65; 67; 97; 99])); (GZero ZEndLine)]), [97; 98; 99; 65; 66; 67], [1]%nat);
  (* (?im)^[<3b1>]+$   <3b1><391> *)
  ((GConcat [(GZero ZBeginLine); (GPlus false (GLiteral true [913])); (GZero ZEndLine)]), [206; 177; 206; 145], [1]%nat);
  (* [Aa]BC   abc *)
  ((GConcat [(GLiteral true [65]); (GLiteral false [66; 67])]), [97; 98; 99], []%nat);
  (* [Aa]bc   abc *)
  ((GConcat [(GLiteral true [65]); (GLiteral false [98; 99])]), [97; 98; 99], [1]%nat);
  (* [^\S\s]   abcd *)
  ((GClass []), [97; 98; 99; 100], []%nat);
  (* [^\S[:space:]]   abcd *)
  ((GClass []), [97; 98; 99; 100], []%nat);
  (* [^\D\d]   abcd *)
  ((GClass []), [97; 98; 99; 100], []%nat);
  (* [^\D[:digit:]]   abcd *)
  ((GClass []), [97; 98; 99; 100], []%nat);
  (* (?i)\W   x *)
  ((GClass [0; 47; 58; 64; 91; 94; 96; 96; 123; 382; 384; 8489; 8491; 1114111]), [120], []%nat);
  (* (?i)\W   k *)
  ((GClass [0; 47; 58; 64; 91; 94; 96; 96; 123; 382; 384; 8489; 8491; 1114111]), [107], []%nat);
  (* (?i)\W   s *)
  ((GClass [0; 47; 58; 64; 91; 94; 96; 96; 123; 382; 384; 8489; 8491; 1114111]), [115], []%nat);
  (* \!\''\#\$\%\&\'\(\)\*\+\,\-\.\/\:\;\<\=\>\?\@\[\\\]\^\_\{\|\}\~   !''#$%&'()*+,-./:;<=>?@[\]^_{|}~ *)
  ((GLiteral false [33; 34; 35; 36; 37; 38; 39; 40; 41; 42; 43; 44; 45; 46; 47; 58; 59; 60; 61; 62; 63; 64; 91; 92; 93; 94; 95; 123; 124; 125; 126]), [33; 34; 35; 36; 37; 38; 39; 40; 41; 42; 43; 44; 45; 46; 47; 58; 59; 60; 61; 62; 63; 64; 91; 92; 93; 94; 95; 123; 124; 125; 126], [1]%nat);
  (* [\!\''\#\$\%\&\'\(\)\*\+\,\-\.\/\:\;\<\=\>\?\@\[\\\]\^\_\{\|\}\~]+   !''#$%&'()*+,-./:;<=>?@[\]^_{|}~ *)
  ((GPlus false (GClass [33; 47; 58; 64; 91; 95; 123; 126])), [33; 34; 35; 36; 37; 38; 39; 40; 41; 42; 43; 44; 45; 46; 47; 58; 59; 60; 61; 62; 63; 64; 91; 92; 93; 94; 95; 123; 124; 125; 126], [1]%nat);
  (* \`   ` *)
  ((GLiteral false [96]), [96], [1]%nat);
  (* [\`]+   ` *)
  ((GPlus false (GLiteral false [96])), [96], [1]%nat);
  (* .   qwertyuiopasdfghjklzxcvbnm1234567890 *)
  (GAnyNotNL, [113; 119; 101; 114; 116; 121; 117; 105; 111; 112; 97; 115; 100; 102; 103; 104; 106; 107; 108; 122; 120; 99; 118; 98; 110; 109; 49; 50; 51; 52; 53; 54; 55; 56; 57; 48], [1]%nat)
].
