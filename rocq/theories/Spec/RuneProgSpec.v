(** What it means for a line to match a program of rune instructions, before it is
    compiled to bytes: a rune instruction consumes the encoding of one rune of its class. *)
From Coq Require Import List NArith Relations.
From Verif Require Import Model.Matcher Model.Utf Spec.Utf8Spec Spec.RegexSpec Spec.MatchSpec.
Import ListNotations.
Local Open Scope N_scope.

Definition surrogate (r : N) : Prop := 0xD800 <= r /\ r < 0xE000.
(** The three bytes that would encode a surrogate; they do not occur in valid UTF-8. *)
Inductive surrogate_bytes : N -> list N -> Prop :=
| surrogate_3 : forall r b0 b1 b2 y z, surrogate r -> r = 13 * 4096 + y * 64 + z ->
    y < 64 -> z < 64 -> b0 = 0xED -> b1 = 0x80 + y -> b2 = 0x80 + z ->
    surrogate_bytes r [b0; b1; b2].
(** UTF-8 extended to surrogates. *)
Definition wtf8 (r : N) (w : list N) : Prop := utf8 r w \/ surrogate_bytes r w.

Section Runs.
Variable simple_fold : N -> N.
(** The encoding: [utf8] or [wtf8]. *)
Variable enc : N -> list N -> Prop.

(** [w] encodes a rune that the instruction matches. *)
Definition accepts (i : xinst) (w : list N) : Prop :=
  match i with
  | XRune _ rs false _ => exists r, in_class rs r /\ enc r w
  | XRune _ rs true _ => exists r r', in_class rs r /\ same_letter simple_fold r r' /\ enc r' w
  | XAny _ => exists r, enc r w
  | XAnyNotNL _ => exists r, r <> 10 /\ enc r w
  | XB _ => False
  end.
Definition rune_out (i : xinst) : option N :=
  match i with XRune _ _ _ o | XAny o | XAnyNotNL o => Some o | XB _ => None end.
Definition xinstr (p : xprog) (pc : N) (i : xinst) : Prop :=
  nth_error (x_inst p) (N.to_nat pc) = Some i.

Inductive xstep (p : xprog) (line : list N) (bot eot : bool) : N * nat -> N * nat -> Prop :=
| xstep_alt1 : forall pc k a b, xinstr p pc (XB (IAlt a b)) -> xstep p line bot eot (pc, k) (a, k)
| xstep_alt2 : forall pc k a b, xinstr p pc (XB (IAlt a b)) -> xstep p line bot eot (pc, k) (b, k)
| xstep_nop : forall pc k a, xinstr p pc (XB (INop a)) -> xstep p line bot eot (pc, k) (a, k)
| xstep_assert : forall pc k w a, xinstr p pc (XB (IEmpty w a)) ->
    (forall n, N.testbit w n = true -> holds line bot eot k n) ->
    xstep p line bot eot (pc, k) (a, k)
| xstep_rune : forall pc k k' i o u w v, xinstr p pc i -> rune_out i = Some o ->
    accepts i w -> line = u ++ w ++ v -> k = length u -> k' = (k + length w)%nat ->
    xstep p line bot eot (pc, k) (o, k').

Definition rune_match (p : xprog) (bot eot : bool) (line : list N) : Prop :=
  exists k0 pc k, (k0 <= length line)%nat /\
    clos_refl_trans _ (xstep p line bot eot) (x_start p, k0) (pc, k) /\
    xinstr p pc (XB IMatch).
End Runs.

(** A range that does not begin or end close to the surrogates: entirely below or above
    them, or covering at least U+D000 to U+EFFF. *)
Definition clear_range (lo hi : N) : Prop :=
  hi < 0xD800 \/ 0xE000 <= lo \/ (lo <= 0xD000 /\ 0xEFFF <= hi).

Inductive sorted_class : list N -> Prop :=
| sorted_nil : sorted_class []
| sorted_one : forall lo hi, lo <= hi -> hi <= 0x10FFFF -> clear_range lo hi ->
    sorted_class [lo; hi]
| sorted_cons : forall lo hi lo' hi' rs, lo <= hi -> clear_range lo hi -> hi < lo' ->
    sorted_class (lo' :: hi' :: rs) -> sorted_class (lo :: hi :: lo' :: hi' :: rs).

Section Wf.
Variable simple_fold : N -> N.
Variable orbit_max : nat.

(** What unicode.SimpleFold does on ASCII runes whose case variant is ASCII. *)
Definition ascii_case : Prop := forall r, r < 0x80 -> simple_fold r < 0x80 ->
  (65 <= r <= 90 -> simple_fold r = r + 32) /\
  (97 <= r <= 122 -> simple_fold r = r - 32) /\
  (~ 65 <= r <= 90 -> ~ 97 <= r <= 122 -> simple_fold r = r).

(** Rune instructions as regexp/syntax generates them: InstRune1 has one rune; FoldCase
    is set only on single runes, the smallest of their case variants; otherwise the runes
    are a sorted list of ranges. In addition:
    - no range begins or ends close to the surrogates;
    - a class of two runes that are each other's case variants is ASCII;
    - runes outside U+0041..U+1044F have no case variants. *)
Definition wf_rune (i : xinst) : Prop :=
  match i with
  | XRune true rs fold _ => fold = false /\ exists r, scalar r /\ (rs = [r] \/ rs = [r; r])
  | XRune false rs true _ => exists r, rs = [r] /\ cyclic simple_fold orbit_max r /\
      (forall r', same_letter simple_fold r r' -> r <= r' /\ scalar r') /\
      (r < 0x41 \/ 0x1044f < r -> simple_fold r = r)
  | XRune false rs false _ => (exists r, scalar r /\ rs = [r]) \/ (sorted_class rs /\
      forall r0 r2, rs = [r0; r0; r2; r2] -> simple_fold r0 = r2 -> simple_fold r2 = r0 -> r2 < 0x80)
  | XB (IByte _ _ _ _) => False   (* not an instruction of regexp/syntax *)
  | _ => True
  end.
Definition xtargets (i : xinst) : list N :=
  match i with XB i => targets i | XRune _ _ _ o | XAny o | XAnyNotNL o => [o] end.
Definition wf_xprog (p : xprog) : Prop :=
  Forall wf_rune (x_inst p) /\
  Forall (fun i => Forall (fun t => t < N.of_nat (length (x_inst p))) (xtargets i)) (x_inst p) /\
  x_start p < N.of_nat (length (x_inst p)).
End Wf.
