(** The command line of hound: cmds/hound/main.go:84-127, with package flag of Go's library
    (FlagSet.Parse, parseOne) and strconv.ParseInt(s, 0, 64), ParseBool as far as flags use them.
    What is printed for a usage error is left out; flag.Var and other kinds of flags are not
    used by hound. *)
From Verif Require Import Model.Base Model.GoStr.
Local Open Scope N_scope.

(** strconv: the digit of a base-0 number, [None] if it is no digit; lower(c) = c | 0x20 *)
Definition lower (c : byte) : byte := N.lor c 32.
Definition char_digit (c : byte) : option N :=
  if (48 <=? c) && (c <=? 57) then Some (c - 48)
  else if (97 <=? lower c) && (lower c <=? 122) then Some (lower c - 97 + 10)
  else None.
(** ParseUint(s, 0, 64): the loop over the digits; underscores are skipped and noted. *)
Fixpoint digits_loop (base n : N) (underscores : bool) (s : str) : option (N * bool) :=
  match s with
  | [] => Some (n, underscores)
  | c :: r =>
      if c =? 95 then digits_loop base n true r
      else match char_digit c with
           | None => None
           | Some d =>
               if base <=? d then None
               else if (2 ^ 64 - 1) / base + 1 <=? n then None
               else let n := u64 (n * base) in
                    let n1 := u64 (n + d) in
                    if n1 <? n then None else digits_loop base n1 underscores r
           end
  end.
(** underscoreOK: [saw] is the last thing seen: 94 the beginning, 48 a digit, 95 an underscore, 33 anything else. *)
Fixpoint us_loop (hex : bool) (saw : byte) (s : str) : bool :=
  match s with
  | [] => negb (saw =? 95)
  | c :: r =>
      if ((48 <=? c) && (c <=? 57)) || (hex && (97 <=? lower c) && (lower c <=? 102)) then us_loop hex 48 r
      else if c =? 95 then if saw =? 48 then us_loop hex 95 r else false
      else if saw =? 95 then false else us_loop hex 33 r
  end.
Definition underscoreOK (s : str) : bool :=
  let s := match s with c :: r => if (c =? 45) || (c =? 43) then r else s | [] => s end in
  match s with
  | z :: p :: r =>
      if (z =? 48) && ((lower p =? 98) || (lower p =? 111) || (lower p =? 120)) then us_loop (lower p =? 120) 48 r
      else us_loop false 94 s
  | _ => us_loop false 94 s
  end.
(** The base, and the digits after its prefix. *)
Definition base_of (s : str) : N * str :=
  match s with
  | z :: r =>
      if z =? 48 then
        match r with
        | p :: ((_ :: _) as d) =>
            if lower p =? 98 then (2, d) else if lower p =? 111 then (8, d) else if lower p =? 120 then (16, d) else (8, r)
        | _ => (8, r)
        end
      else (10, s)
  | [] => (10, s)
  end.
Definition parse_uint0 (s : str) : option N :=
  match s with
  | [] => None
  | _ =>
      let '(base, d) := base_of s in
      '(n, underscores) <- digits_loop base 0 false d ;;
      if underscores && negb (underscoreOK s) then None else Some n
  end.
Definition parse_int0 (s : str) : option Z :=
  let '(neg, d) := match s with
                   | 43 :: r => (false, r)
                   | 45 :: r => (true, r)
                   | _ => (false, s)
                   end in
  un <- parse_uint0 d ;;
  if negb neg && (2 ^ 63 <=? un) then None
  else if neg && (2 ^ 63 <? un) then None
  else Some (if neg then - Z.of_N un else Z.of_N un)%Z.

(** strconv.ParseBool: 1 t T TRUE true True, 0 f F FALSE false False *)
Definition words_true : list str := [[49]; [116]; [84]; [84; 82; 85; 69]; [116; 114; 117; 101]; [84; 114; 117; 101]].
Definition words_false : list str := [[48]; [102]; [70]; [70; 65; 76; 83; 69]; [102; 97; 108; 115; 101]; [70; 97; 108; 115; 101]].
Definition parse_bool (s : str) : option bool :=
  if existsb (str_eqb s) words_true then Some true else if existsb (str_eqb s) words_false then Some false else None.

(** The flags of a program with their values: flag.String, flag.Int, flag.Bool. *)
Inductive value := VStr (s : str) | VInt (z : Z) | VBool (b : bool).
Definition flagset := list (str * value).
Fixpoint lookup (name : str) (fs : flagset) : option value :=
  match fs with [] => None | (k, v) :: r => if str_eqb name k then Some v else lookup name r end.
Fixpoint assign (name : str) (v : value) (fs : flagset) : flagset :=
  match fs with [] => [] | (k, w) :: r => if str_eqb name k then (k, v) :: r else (k, w) :: assign name v r end.
(** Value.Set *)
Definition Set_ (old : value) (s : str) : option value :=
  match old with
  | VStr _ => Some (VStr s)
  | VInt _ => option_map VInt (parse_int0 s)
  | VBool _ => option_map VBool (parse_bool s)
  end.

Inductive one := More (fs : flagset) (args : list str) | Stop (args : list str) | Fail | ErrHelp.
(** The name up to the first = that is not its first byte, and the text after it. *)
Fixpoint split_eq (s : str) : str * option str :=
  match s with
  | [] => ([], None)
  | c :: r => if c =? 61 then ([], Some r) else let '(a, b) := split_eq r in (c :: a, b)
  end.
Definition k_help : str := [104; 101; 108; 112].
Definition k_h : str := [104].
(** "true" *)
Definition k_true : str := [116; 114; 117; 101].
Definition parseOne (fs : flagset) (args : list str) : one :=
  match args with
  | [] => Stop []
  | s :: rest =>
      match s with
      | 45 :: c :: r =>
          if str_eqb s [45; 45] then Stop rest
          else
            let name := if c =? 45 then r else c :: r in
            match name with
            | [] => Fail
            | x :: more =>
                if (x =? 45) || (x =? 61) then Fail
                else
                  let '(tail, given) := split_eq more in
                  let name := x :: tail in
                  match lookup name fs with
                  | None => if str_eqb name k_help || str_eqb name k_h then ErrHelp else Fail
                  | Some (VBool _ as old) =>
                      match Set_ old (match given with Some v => v | None => k_true end) with
                      | Some v => More (assign name v fs) rest
                      | None => Fail
                      end
                  | Some old =>
                      match given, rest with
                      | Some v, _ => match Set_ old v with Some v => More (assign name v fs) rest | None => Fail end
                      | None, v :: rest => match Set_ old v with Some v => More (assign name v fs) rest | None => Fail end
                      | None, [] => Fail
                      end
                  end
            end
      | _ => Stop args
      end
  end.
(** flag.Parse, with ExitOnError: exit status 0 for help, 2 for an error. [fuel]: more than the arguments. *)
Inductive parsed := Flags (fs : flagset) (rest : list str) | Exit (status : N).
Fixpoint parse_flags (fuel : nat) (fs : flagset) (args : list str) : option parsed :=
  match fuel with
  | O => None
  | S fuel =>
      match parseOne fs args with
      | More fs args => parse_flags fuel fs args
      | Stop rest => Some (Flags fs rest)
      | Fail => Some (Exit 2)
      | ErrHelp => Some (Exit 0)
      end
  end.
Definition Parse (fs : flagset) (args : list str) : option parsed := parse_flags (S (length args)) fs args.

(** main.go:84-90: host repos files context ignore-case show-stats like-grep; [host] from 76-81. *)
Definition f_host : str := [104; 111; 115; 116].
Definition f_repos : str := [114; 101; 112; 111; 115].
Definition f_files : str := [102; 105; 108; 101; 115].
Definition f_context : str := [99; 111; 110; 116; 101; 120; 116].
Definition f_ignore_case : str := [105; 103; 110; 111; 114; 101; 45; 99; 97; 115; 101].
Definition f_show_stats : str := [115; 104; 111; 119; 45; 115; 116; 97; 116; 115].
Definition f_like_grep : str := [108; 105; 107; 101; 45; 103; 114; 101; 112].
Definition hound_flags (host : str) : flagset :=
  [(f_host, VStr host); (f_repos, VStr [42]); (f_files, VStr []); (f_context, VInt 2); (f_ignore_case, VBool false);
   (f_show_stats, VBool false); (f_like_grep, VBool false)].
Definition the_str (name : str) (fs : flagset) : str := match lookup name fs with Some (VStr s) => s | _ => [] end.
Definition the_int (name : str) (fs : flagset) : Z := match lookup name fs with Some (VInt z) => z | _ => 0%Z end.
Definition the_bool (name : str) (fs : flagset) : bool := match lookup name fs with Some (VBool b) => b | _ => false end.

(** main.go:94-127: the search that main makes, or how else it ends. *)
Record asks := mkAsks { a_pattern : str; a_host : str; a_repos : str; a_files : str; a_context : Z; a_case : bool; a_stats : bool; a_grep : bool }.
Inductive ends := Asks (a : asks) | Usage | Exits (status : N).
Definition hound (host : str) (args : list str) : option ends :=
  p <- Parse (hound_flags host) args ;;
  match p with
  | Exit n => Some (Exits n)
  | Flags fs rest =>
      match rest with
      | [pat] => Some (Asks (mkAsks pat (the_str f_host fs) (the_str f_repos fs) (the_str f_files fs) (the_int f_context fs)
                                    (the_bool f_ignore_case fs) (the_bool f_show_stats fs) (the_bool f_like_grep fs)))
      | _ => Some Usage
      end
  end.

(** cmds/houndd/main.go:132-145: conf addr dev version, defaults config.json and :6080. Arguments
    after the flags are not looked at. *)
Definition f_conf : str := [99; 111; 110; 102].
Definition f_addr : str := [97; 100; 100; 114].
Definition f_dev : str := [100; 101; 118].
Definition f_version : str := [118; 101; 114; 115; 105; 111; 110].
Definition houndd_flags : flagset :=
  [(f_conf, VStr [99; 111; 110; 102; 105; 103; 46; 106; 115; 111; 110]); (f_addr, VStr [58; 54; 48; 56; 48]); (f_dev, VBool false); (f_version, VBool false)].
Inductive starts := Starts (conf addr : str) (dev : bool) | Version | Stops (status : N).
Definition houndd (args : list str) : option starts :=
  p <- Parse houndd_flags args ;;
  match p with
  | Exit n => Some (Stops n)
  | Flags fs _ => Some (if the_bool f_version fs then Version else Starts (the_str f_conf fs) (the_str f_addr fs) (the_bool f_dev fs))
  end.
