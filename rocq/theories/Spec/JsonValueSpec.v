(** JSON values with the texts replaced (Spec/JsonSpec.v), and the values that can be
    written: texts of bytes, and numbers. *)
From Verif Require Import Model.Base Model.Json Spec.ApiSpec Spec.Utf8Spec Spec.JsonSpec.
Local Open Scope N_scope.

Inductive vreplaced : jv -> jv -> Prop :=
| vr_null : vreplaced VNull VNull
| vr_bool : forall b, vreplaced (VBool b) (VBool b)
| vr_num : forall lit, vreplaced (VNum lit) (VNum lit)
| vr_str : forall s s', replaced s s' -> vreplaced (VStr s) (VStr s')
| vr_arr : forall l l', Forall2 vreplaced l l' -> vreplaced (VArr l) (VArr l')
| vr_obj : forall l l', Forall2 (fun p p' => replaced (fst p) (fst p') /\ vreplaced (snd p) (snd p')) l l' ->
    vreplaced (VObj l) (VObj l').

(** number of RFC 8259 *)
Definition int_text (i : str) : Prop := i <> [] /\ Forall digit i /\ forall r, i = 48 :: r -> r = [].
Definition frac_text (f : str) : Prop := f = [] \/ exists d, f = 46 :: d /\ d <> [] /\ Forall digit d.
Definition exp_text (e : str) : Prop :=
  e = [] \/ exists c s d, e = c :: s ++ d /\ (c = 101 \/ c = 69) /\ (s = [] \/ s = [43] \/ s = [45]) /\ d <> [] /\ Forall digit d.
Definition number_text (s : str) : Prop :=
  exists sign i f e, s = sign ++ i ++ f ++ e /\ (sign = [] \/ sign = [45]) /\ int_text i /\ frac_text f /\ exp_text e.

Inductive writable : jv -> Prop :=
| wr_null : writable VNull
| wr_bool : forall b, writable (VBool b)
| wr_num : forall lit, number_text lit -> writable (VNum lit)
| wr_str : forall s, Forall is_byte s -> writable (VStr s)
| wr_arr : forall l, Forall writable l -> writable (VArr l)
| wr_obj : forall l, Forall (fun p => Forall is_byte (fst p) /\ writable (snd p)) l -> writable (VObj l).

(** All texts are valid UTF-8. *)
Inductive vvalid : jv -> Prop :=
| vv_null : vvalid VNull
| vv_bool : forall b, vvalid (VBool b)
| vv_num : forall lit, vvalid (VNum lit)
| vv_str : forall s, valid_utf8 s -> vvalid (VStr s)
| vv_arr : forall l, Forall vvalid l -> vvalid (VArr l)
| vv_obj : forall l, Forall (fun p => valid_utf8 (fst p) /\ vvalid (snd p)) l -> vvalid (VObj l).
