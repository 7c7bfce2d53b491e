(** The bytes of /repo/config-example.json. *)
From Verif Require Import Model.Base.
Local Open Scope N_scope.
Definition config_example_json : str := [
123; 10; 32; 32; 32; 32; 34; 109; 97; 120; 45; 99; 111; 110; 99; 117; 114; 114; 101; 110; 116; 45; 105; 110; 100; 101; 120; 101; 114; 115; 34; 32; 58;
32; 50; 44; 10; 32; 32; 32; 32; 34; 100; 98; 112; 97; 116; 104; 34; 32; 58; 32; 34; 100; 97; 116; 97; 34; 44; 10; 32; 32; 32; 32; 34; 116; 105; 116;
108; 101; 34; 32; 58; 32; 34; 72; 111; 117; 110; 100; 34; 44; 10; 32; 32; 32; 32; 34; 104; 101; 97; 108; 116; 104; 45; 99; 104; 101; 99; 107; 45; 117;
114; 105; 34; 32; 58; 32; 34; 47; 104; 101; 97; 108; 116; 104; 122; 34; 44; 10; 32; 32; 32; 32; 34; 118; 99; 115; 45; 99; 111; 110; 102; 105; 103; 34;
32; 58; 32; 123; 10; 32; 32; 32; 32; 32; 32; 32; 32; 34; 103; 105; 116; 34; 32; 58; 32; 123; 10; 32; 32; 32; 32; 32; 32; 32; 32; 32; 32; 32; 32; 34;
100; 101; 116; 101; 99; 116; 45; 114; 101; 102; 34; 32; 58; 32; 116; 114; 117; 101; 10; 32; 32; 32; 32; 32; 32; 32; 32; 125; 10; 32; 32; 32; 32; 125;
44; 10; 32; 32; 32; 32; 34; 114; 101; 112; 111; 115; 34; 32; 58; 32; 123; 10; 32; 32; 32; 32; 32; 32; 32; 32; 34; 83; 111; 109; 101; 71; 105; 116; 82;
101; 112; 111; 34; 32; 58; 32; 123; 10; 32; 32; 32; 32; 32; 32; 32; 32; 32; 32; 32; 32; 34; 117; 114; 108; 34; 32; 58; 32; 34; 104; 116; 116; 112;
115; 58; 47; 47; 119; 119; 119; 46; 103; 105; 116; 104; 117; 98; 46; 99; 111; 109; 47; 89; 111; 117; 114; 79; 114; 103; 97; 110; 105; 122; 97; 116;
105; 111; 110; 47; 82; 101; 112; 111; 79; 110; 101; 46; 103; 105; 116; 34; 10; 32; 32; 32; 32; 32; 32; 32; 32; 125; 44; 10; 32; 32; 32; 32; 32; 32;
32; 32; 34; 65; 110; 111; 116; 104; 101; 114; 71; 105; 116; 82; 101; 112; 111; 34; 32; 58; 32; 123; 10; 32; 32; 32; 32; 32; 32; 32; 32; 32; 32; 32;
32; 34; 117; 114; 108; 34; 32; 58; 32; 34; 104; 116; 116; 112; 115; 58; 47; 47; 119; 119; 119; 46; 103; 105; 116; 104; 117; 98; 46; 99; 111; 109; 47;
89; 111; 117; 114; 79; 114; 103; 97; 110; 105; 122; 97; 116; 105; 111; 110; 47; 82; 101; 112; 111; 79; 110; 101; 46; 103; 105; 116; 34; 44; 10; 32;
32; 32; 32; 32; 32; 32; 32; 32; 32; 32; 32; 34; 109; 115; 45; 98; 101; 116; 119; 101; 101; 110; 45; 112; 111; 108; 108; 34; 32; 58; 32; 49; 48; 48;
48; 48; 44; 10; 32; 32; 32; 32; 32; 32; 32; 32; 32; 32; 32; 32; 34; 101; 120; 99; 108; 117; 100; 101; 45; 100; 111; 116; 45; 102; 105; 108; 101; 115;
34; 32; 58; 32; 116; 114; 117; 101; 44; 10; 32; 32; 32; 32; 32; 32; 32; 32; 32; 32; 32; 32; 34; 100; 105; 115; 112; 108; 97; 121; 45; 110; 97; 109;
101; 34; 32; 58; 32; 34; 82; 101; 112; 111; 79; 110; 101; 32; 40; 100; 111; 116; 32; 102; 105; 108; 101; 115; 32; 110; 111; 116; 32; 105; 110; 100;
101; 120; 101; 100; 41; 34; 44; 10; 32; 32; 32; 32; 32; 32; 32; 32; 32; 32; 32; 32; 34; 97; 117; 116; 111; 45; 103; 101; 110; 101; 114; 97; 116; 101;
100; 45; 102; 105; 108; 101; 115; 34; 32; 58; 32; 91; 34; 101; 120; 97; 109; 112; 108; 101; 47; 112; 97; 116; 104; 34; 93; 10; 32; 32; 32; 32; 32; 32;
32; 32; 125; 44; 10; 32; 32; 32; 32; 32; 32; 32; 32; 34; 71; 105; 116; 82; 101; 112; 111; 87; 105; 116; 104; 68; 101; 116; 101; 99; 116; 82; 101; 102;
68; 105; 115; 97; 98; 108; 101; 100; 34; 32; 58; 32; 123; 10; 32; 32; 32; 32; 32; 32; 32; 32; 32; 32; 32; 32; 34; 117; 114; 108; 34; 32; 58; 32; 34;
104; 116; 116; 112; 115; 58; 47; 47; 119; 119; 119; 46; 103; 105; 116; 104; 117; 98; 46; 99; 111; 109; 47; 89; 111; 117; 114; 79; 114; 103; 97; 110;
105; 122; 97; 116; 105; 111; 110; 47; 82; 101; 112; 111; 79; 110; 101; 46; 103; 105; 116; 34; 44; 10; 32; 32; 32; 32; 32; 32; 32; 32; 32; 32; 32; 32;
34; 118; 99; 115; 45; 99; 111; 110; 102; 105; 103; 34; 32; 58; 32; 123; 10; 32; 32; 32; 32; 32; 32; 32; 32; 32; 32; 32; 32; 32; 32; 32; 32; 34; 100;
101; 116; 101; 99; 116; 45; 114; 101; 102; 34; 32; 58; 32; 102; 97; 108; 115; 101; 10; 32; 32; 32; 32; 32; 32; 32; 32; 32; 32; 32; 32; 125; 10; 32;
32; 32; 32; 32; 32; 32; 32; 125; 44; 10; 32; 32; 32; 32; 32; 32; 32; 32; 34; 83; 111; 109; 101; 77; 101; 114; 99; 117; 114; 105; 97; 108; 82; 101;
112; 111; 34; 32; 58; 32; 123; 10; 32; 32; 32; 32; 32; 32; 32; 32; 32; 32; 32; 32; 34; 117; 114; 108; 34; 32; 58; 32; 34; 104; 116; 116; 112; 115; 58;
47; 47; 119; 119; 119; 46; 101; 120; 97; 109; 112; 108; 101; 46; 99; 111; 109; 47; 102; 111; 111; 47; 104; 103; 34; 44; 10; 32; 32; 32; 32; 32; 32;
32; 32; 32; 32; 32; 32; 34; 118; 99; 115; 34; 32; 58; 32; 34; 104; 103; 34; 10; 32; 32; 32; 32; 32; 32; 32; 32; 125; 44; 10; 32; 32; 32; 32; 32; 32;
32; 32; 34; 83; 117; 98; 118; 101; 114; 115; 105; 111; 110; 34; 32; 58; 32; 123; 10; 32; 32; 32; 32; 32; 32; 32; 32; 32; 32; 32; 32; 34; 117; 114;
108; 34; 32; 58; 32; 34; 104; 116; 116; 112; 58; 47; 47; 109; 121; 45; 115; 118; 110; 46; 99; 111; 109; 47; 114; 101; 112; 111; 34; 44; 10; 32; 32;
32; 32; 32; 32; 32; 32; 32; 32; 32; 32; 34; 117; 114; 108; 45; 112; 97; 116; 116; 101; 114; 110; 34; 32; 58; 32; 123; 10; 32; 32; 32; 32; 32; 32; 32;
32; 32; 32; 32; 32; 32; 32; 32; 32; 34; 98; 97; 115; 101; 45; 117; 114; 108; 34; 32; 58; 32; 34; 123; 117; 114; 108; 125; 47; 123; 112; 97; 116; 104;
125; 123; 97; 110; 99; 104; 111; 114; 125; 34; 10; 32; 32; 32; 32; 32; 32; 32; 32; 32; 32; 32; 32; 125; 44; 10; 32; 32; 32; 32; 32; 32; 32; 32; 32;
32; 32; 32; 34; 118; 99; 115; 34; 32; 58; 32; 34; 115; 118; 110; 34; 10; 32; 32; 32; 32; 32; 32; 32; 32; 125; 44; 10; 32; 32; 32; 32; 32; 32; 32; 32;
34; 83; 117; 98; 118; 101; 114; 115; 105; 111; 110; 87; 105; 116; 104; 67; 114; 101; 100; 115; 34; 32; 58; 32; 123; 10; 32; 32; 32; 32; 32; 32; 32;
32; 32; 32; 32; 32; 34; 117; 114; 108; 34; 32; 58; 32; 34; 104; 116; 116; 112; 58; 47; 47; 109; 121; 45; 112; 114; 105; 118; 97; 116; 101; 45; 115;
118; 110; 46; 99; 111; 109; 47; 114; 101; 112; 111; 34; 44; 10; 32; 32; 32; 32; 32; 32; 32; 32; 32; 32; 32; 32; 34; 117; 114; 108; 45; 112; 97; 116;
116; 101; 114; 110; 34; 32; 58; 32; 123; 10; 32; 32; 32; 32; 32; 32; 32; 32; 32; 32; 32; 32; 32; 32; 32; 32; 34; 98; 97; 115; 101; 45; 117; 114; 108;
34; 32; 58; 32; 34; 123; 117; 114; 108; 125; 47; 123; 112; 97; 116; 104; 125; 123; 97; 110; 99; 104; 111; 114; 125; 34; 10; 32; 32; 32; 32; 32; 32;
32; 32; 32; 32; 32; 32; 125; 44; 10; 32; 32; 32; 32; 32; 32; 32; 32; 32; 32; 32; 32; 34; 118; 99; 115; 34; 32; 58; 32; 34; 115; 118; 110; 34; 44; 10;
32; 32; 32; 32; 32; 32; 32; 32; 32; 32; 32; 32; 34; 118; 99; 115; 45; 99; 111; 110; 102; 105; 103; 34; 32; 58; 32; 123; 10; 32; 32; 32; 32; 32; 32;
32; 32; 32; 32; 32; 32; 32; 32; 32; 32; 34; 117; 115; 101; 114; 110; 97; 109; 101; 34; 32; 58; 32; 34; 117; 115; 101; 114; 110; 97; 109; 101; 95; 102;
111; 114; 95; 114; 111; 95; 97; 99; 99; 111; 117; 110; 116; 34; 44; 10; 32; 32; 32; 32; 32; 32; 32; 32; 32; 32; 32; 32; 32; 32; 32; 32; 34; 112; 97;
115; 115; 119; 111; 114; 100; 34; 32; 58; 32; 34; 112; 97; 115; 115; 119; 111; 114; 100; 95; 102; 111; 114; 95; 114; 111; 95; 97; 99; 99; 111; 117;
110; 116; 34; 10; 32; 32; 32; 32; 32; 32; 32; 32; 32; 32; 32; 32; 125; 10; 32; 32; 32; 32; 32; 32; 32; 32; 125; 44; 10; 32; 32; 32; 32; 32; 32; 32;
32; 34; 76; 111; 99; 97; 108; 70; 111; 108; 100; 101; 114; 34; 32; 58; 32; 123; 10; 32; 32; 32; 32; 32; 32; 32; 32; 32; 32; 32; 32; 34; 117; 114; 108;
34; 32; 58; 32; 34; 102; 105; 108; 101; 58; 47; 47; 47; 97; 98; 115; 111; 108; 117; 116; 101; 47; 112; 97; 116; 104; 47; 116; 111; 47; 100; 105; 114;
101; 99; 116; 111; 114; 121; 34; 10; 32; 32; 32; 32; 32; 32; 32; 32; 125; 44; 10; 32; 32; 32; 32; 32; 32; 32; 32; 34; 82; 101; 112; 111; 87; 105; 116;
104; 67; 117; 115; 116; 111; 109; 85; 114; 108; 115; 34; 32; 58; 32; 123; 10; 32; 32; 32; 32; 32; 32; 32; 32; 32; 32; 32; 32; 34; 117; 114; 108; 34;
32; 58; 32; 34; 104; 116; 116; 112; 115; 58; 47; 47; 103; 105; 116; 104; 117; 98; 46; 99; 111; 109; 47; 117; 115; 101; 114; 110; 97; 109; 101; 47; 70;
111; 111; 46; 103; 105; 116; 34; 44; 10; 32; 32; 32; 32; 32; 32; 32; 32; 32; 32; 32; 32; 34; 117; 114; 108; 45; 112; 97; 116; 116; 101; 114; 110; 34;
32; 58; 32; 123; 10; 32; 32; 32; 32; 32; 32; 32; 32; 32; 32; 32; 32; 32; 32; 32; 32; 34; 98; 97; 115; 101; 45; 117; 114; 108; 34; 32; 58; 32; 34; 123;
117; 114; 108; 125; 47; 102; 105; 108; 101; 115; 47; 123; 112; 97; 116; 104; 125; 123; 97; 110; 99; 104; 111; 114; 125; 34; 44; 10; 32; 32; 32; 32;
32; 32; 32; 32; 32; 32; 32; 32; 32; 32; 32; 32; 34; 97; 110; 99; 104; 111; 114; 34; 32; 58; 32; 34; 35; 108; 105; 110; 101; 61; 123; 108; 105; 110;
101; 125; 34; 10; 32; 32; 32; 32; 32; 32; 32; 32; 32; 32; 32; 32; 125; 10; 32; 32; 32; 32; 32; 32; 32; 32; 125; 44; 10; 32; 32; 32; 32; 32; 32; 32;
32; 34; 66; 105; 116; 98; 117; 99; 107; 101; 116; 67; 117; 115; 116; 111; 109; 85; 114; 108; 34; 32; 58; 32; 123; 10; 32; 32; 32; 32; 32; 32; 32; 32;
32; 32; 32; 32; 34; 117; 114; 108; 34; 32; 58; 32; 34; 103; 105; 116; 64; 98; 105; 116; 98; 117; 99; 107; 101; 116; 46; 111; 114; 103; 58; 111; 114;
103; 97; 110; 105; 122; 97; 116; 105; 111; 110; 47; 112; 114; 111; 106; 101; 99; 116; 46; 103; 105; 116; 34; 44; 10; 32; 32; 32; 32; 32; 32; 32; 32;
32; 32; 32; 32; 34; 117; 114; 108; 45; 112; 97; 116; 116; 101; 114; 110; 34; 32; 58; 32; 123; 10; 32; 32; 32; 32; 32; 32; 32; 32; 32; 32; 32; 32; 32;
32; 32; 32; 34; 98; 97; 115; 101; 45; 117; 114; 108; 34; 32; 58; 32; 34; 104; 116; 116; 112; 115; 58; 47; 47; 123; 117; 114; 108; 125; 47; 115; 114;
99; 47; 109; 97; 115; 116; 101; 114; 47; 123; 112; 97; 116; 104; 125; 123; 97; 110; 99; 104; 111; 114; 125; 34; 44; 10; 32; 32; 32; 32; 32; 32; 32;
32; 32; 32; 32; 32; 32; 32; 32; 32; 34; 97; 110; 99; 104; 111; 114; 34; 32; 58; 32; 34; 35; 123; 102; 105; 108; 101; 110; 97; 109; 101; 125; 45; 123;
108; 105; 110; 101; 125; 34; 10; 32; 32; 32; 32; 32; 32; 32; 32; 32; 32; 32; 32; 125; 44; 10; 32; 32; 32; 32; 32; 32; 32; 32; 32; 32; 32; 32; 34; 118;
99; 115; 45; 99; 111; 110; 102; 105; 103; 34; 32; 58; 32; 123; 10; 32; 32; 32; 32; 32; 32; 32; 32; 32; 32; 32; 32; 32; 32; 32; 32; 34; 114; 101; 102;
34; 32; 58; 32; 34; 109; 97; 105; 110; 34; 10; 32; 32; 32; 32; 32; 32; 32; 32; 32; 32; 32; 32; 125; 10; 32; 32; 32; 32; 32; 32; 32; 32; 125; 44; 10;
32; 32; 32; 32; 32; 32; 32; 32; 34; 82; 101; 112; 111; 87; 105; 116; 104; 80; 111; 108; 108; 105; 110; 103; 68; 105; 115; 97; 98; 108; 101; 100; 34;
32; 58; 32; 123; 10; 32; 32; 32; 32; 32; 32; 32; 32; 32; 32; 32; 32; 34; 117; 114; 108; 34; 32; 58; 32; 34; 104; 116; 116; 112; 115; 58; 47; 47; 119;
119; 119; 46; 103; 105; 116; 104; 117; 98; 46; 99; 111; 109; 47; 89; 111; 117; 114; 79; 114; 103; 97; 110; 105; 122; 97; 116; 105; 111; 110; 47; 82;
101; 112; 111; 79; 110; 101; 46; 103; 105; 116; 34; 44; 10; 32; 32; 32; 32; 32; 32; 32; 32; 32; 32; 32; 32; 34; 101; 110; 97; 98; 108; 101; 45; 112;
111; 108; 108; 45; 117; 112; 100; 97; 116; 101; 115; 34; 32; 58; 32; 102; 97; 108; 115; 101; 10; 32; 32; 32; 32; 32; 32; 32; 32; 125; 44; 10; 32; 32;
32; 32; 32; 32; 32; 32; 34; 82; 101; 112; 111; 87; 105; 116; 104; 80; 117; 115; 104; 105; 110; 103; 69; 110; 97; 98; 108; 101; 100; 34; 32; 58; 32;
123; 10; 32; 32; 32; 32; 32; 32; 32; 32; 32; 32; 32; 32; 34; 117; 114; 108; 34; 32; 58; 32; 34; 104; 116; 116; 112; 115; 58; 47; 47; 119; 119; 119;
46; 103; 105; 116; 104; 117; 98; 46; 99; 111; 109; 47; 89; 111; 117; 114; 79; 114; 103; 97; 110; 105; 122; 97; 116; 105; 111; 110; 47; 82; 101; 112;
111; 79; 110; 101; 46; 103; 105; 116; 34; 44; 10; 32; 32; 32; 32; 32; 32; 32; 32; 32; 32; 32; 32; 34; 101; 110; 97; 98; 108; 101; 45; 112; 117; 115;
104; 45; 117; 112; 100; 97; 116; 101; 115; 34; 32; 58; 32; 116; 114; 117; 101; 10; 32; 32; 32; 32; 32; 32; 32; 32; 125; 44; 10; 32; 32; 32; 32; 32;
32; 32; 32; 34; 82; 101; 112; 111; 73; 115; 71; 105; 116; 72; 117; 98; 87; 105; 107; 105; 34; 32; 58; 32; 123; 10; 32; 32; 32; 32; 32; 32; 32; 32; 32;
32; 34; 117; 114; 108; 34; 32; 58; 32; 34; 104; 116; 116; 112; 115; 58; 47; 47; 103; 105; 116; 104; 117; 98; 46; 99; 111; 109; 47; 89; 111; 117; 114;
79; 114; 103; 97; 110; 105; 122; 97; 116; 105; 111; 110; 47; 82; 101; 112; 111; 87; 105; 116; 104; 87; 105; 107; 105; 46; 119; 105; 107; 105; 46; 103;
105; 116; 34; 44; 10; 32; 32; 32; 32; 32; 32; 32; 32; 32; 32; 34; 117; 114; 108; 45; 112; 97; 116; 116; 101; 114; 110; 34; 32; 58; 32; 123; 10; 32;
32; 32; 32; 32; 32; 32; 32; 32; 32; 32; 32; 32; 32; 34; 98; 97; 115; 101; 45; 117; 114; 108; 34; 32; 58; 32; 34; 123; 117; 114; 108; 125; 47; 123;
112; 97; 116; 104; 125; 34; 10; 32; 32; 32; 32; 32; 32; 32; 32; 32; 32; 125; 10; 32; 32; 32; 32; 32; 32; 32; 32; 125; 44; 10; 32; 32; 32; 32; 32; 32;
32; 32; 34; 66; 105; 116; 98; 117; 99; 107; 101; 116; 83; 101; 114; 118; 101; 114; 85; 114; 108; 34; 32; 58; 32; 123; 10; 32; 32; 32; 32; 32; 32; 32;
32; 32; 32; 32; 32; 34; 117; 114; 108; 34; 32; 58; 32; 34; 103; 105; 116; 64; 98; 105; 116; 98; 117; 99; 107; 101; 116; 46; 105; 110; 116; 101; 114;
110; 97; 108; 46; 111; 114; 103; 58; 55; 57; 57; 57; 58; 111; 114; 103; 97; 110; 105; 122; 97; 116; 105; 111; 110; 47; 112; 114; 111; 106; 101; 99;
116; 46; 103; 105; 116; 34; 44; 10; 32; 32; 32; 32; 32; 32; 32; 32; 32; 32; 32; 32; 34; 117; 114; 108; 45; 112; 97; 116; 116; 101; 114; 110; 34; 32;
58; 32; 123; 10; 32; 32; 32; 32; 32; 32; 32; 32; 32; 32; 32; 32; 32; 32; 32; 32; 34; 98; 97; 115; 101; 45; 117; 114; 108; 34; 32; 58; 32; 34; 104;
116; 116; 112; 115; 58; 47; 47; 123; 104; 111; 115; 116; 110; 97; 109; 101; 125; 47; 112; 114; 111; 106; 101; 99; 116; 115; 47; 123; 112; 114; 111;
106; 101; 99; 116; 125; 47; 114; 101; 112; 111; 115; 47; 123; 114; 101; 112; 111; 125; 47; 98; 114; 111; 119; 115; 101; 47; 123; 112; 97; 116; 104;
125; 63; 97; 116; 61; 123; 114; 101; 118; 125; 123; 97; 110; 99; 104; 111; 114; 125; 34; 44; 10; 32; 32; 32; 32; 32; 32; 32; 32; 32; 32; 32; 32; 32;
32; 32; 32; 34; 97; 110; 99; 104; 111; 114; 34; 32; 58; 32; 34; 35; 123; 108; 105; 110; 101; 125; 34; 10; 32; 32; 32; 32; 32; 32; 32; 32; 32; 32; 32;
32; 125; 44; 10; 32; 32; 32; 32; 32; 32; 32; 32; 32; 32; 32; 32; 34; 118; 99; 115; 45; 99; 111; 110; 102; 105; 103; 34; 32; 58; 32; 123; 10; 32; 32;
32; 32; 32; 32; 32; 32; 32; 32; 32; 32; 32; 32; 32; 32; 34; 114; 101; 102; 34; 32; 58; 32; 34; 109; 97; 105; 110; 34; 10; 32; 32; 32; 32; 32; 32; 32;
32; 32; 32; 32; 32; 125; 10; 32; 32; 32; 32; 32; 32; 32; 32; 125; 44; 10; 32; 32; 32; 32; 32; 32; 32; 32; 34; 76; 111; 99; 97; 108; 82; 101; 112; 111;
34; 32; 58; 32; 123; 10; 32; 32; 32; 32; 32; 32; 32; 32; 32; 32; 32; 32; 34; 117; 114; 108; 34; 32; 58; 32; 34; 102; 105; 108; 101; 58; 47; 47; 47;
97; 98; 115; 111; 108; 117; 116; 101; 47; 112; 97; 116; 104; 47; 116; 111; 47; 100; 105; 114; 101; 99; 116; 111; 114; 121; 34; 44; 10; 32; 32; 32; 32;
32; 32; 32; 32; 32; 32; 32; 32; 34; 118; 99; 115; 34; 32; 58; 32; 34; 108; 111; 99; 97; 108; 34; 44; 10; 32; 32; 32; 32; 32; 32; 32; 32; 32; 32; 32;
32; 34; 117; 114; 108; 45; 112; 97; 116; 116; 101; 114; 110; 34; 32; 58; 32; 123; 10; 32; 32; 32; 32; 32; 32; 32; 32; 32; 32; 32; 32; 32; 32; 32; 32;
34; 98; 97; 115; 101; 45; 117; 114; 108; 34; 32; 58; 32; 34; 123; 117; 114; 108; 125; 47; 123; 112; 97; 116; 104; 125; 34; 10; 32; 32; 32; 32; 32; 32;
32; 32; 32; 32; 32; 32; 125; 44; 10; 32; 32; 32; 32; 32; 32; 32; 32; 32; 32; 32; 32; 34; 118; 99; 115; 45; 99; 111; 110; 102; 105; 103; 34; 32; 58;
32; 123; 10; 32; 32; 32; 32; 32; 32; 32; 32; 32; 32; 32; 32; 32; 32; 32; 32; 34; 119; 97; 116; 99; 104; 45; 99; 104; 97; 110; 103; 101; 115; 34; 32;
58; 32; 102; 97; 108; 115; 101; 44; 10; 32; 32; 32; 32; 32; 32; 32; 32; 32; 32; 32; 32; 32; 32; 32; 32; 34; 105; 103; 110; 111; 114; 101; 100; 45;
102; 105; 108; 101; 115; 34; 32; 58; 32; 91; 93; 10; 32; 32; 32; 32; 32; 32; 32; 32; 32; 32; 32; 32; 125; 10; 32; 32; 32; 32; 32; 32; 32; 32; 125; 10;
32; 32; 32; 32; 125; 10; 125; 10].
