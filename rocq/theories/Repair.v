(** Model of /repo/src/niapy/util/repair.py.
    [limit], [limit_inverse] and [rand] only compare and copy: they are modelled on [num].
    [wang] and [reflect] compute: they are modelled on real numbers with a rounding function after
    every operation, and (reflect) on binary64 via the standard library's SpecFloat. *)
From Coq Require Import ZArith Lia Bool List Reals SpecFloat.
From Verif Require Import Num Task Prog.
Import ListNotations.

(** element-wise with the bounds; the code requires x, lower, upper of one length *)
Fixpoint zip3 {A} (f : A -> A -> A -> A) (x lo hi : list A) : list A :=
  match x, lo, hi with
  | a :: x', l :: lo', u :: hi' => f a l u :: zip3 f x' lo' hi'
  | _, _, _ => []
  end.

(** numpy.maximum / numpy.minimum on scalars: NaN if either is NaN *)
Definition np_max (a b : num) : num := if is_nan a || is_nan b then NaN else if fltb a b then b else a.
Definition np_min (a b : num) : num := if is_nan a || is_nan b then NaN else if fltb b a then b else a.

(** repair.py:7-19, np.clip(x, lower, upper) = minimum(maximum(x, lower), upper) *)
Definition limit1 (a l u : num) : num := np_min (np_max a l) u.
Definition limit := zip3 limit1.

(** repair.py:22-38; a comparison with NaN is false, so NaN components stay *)
Definition limit_inverse1 (a l u : num) : num :=
  let b := if fltb a l then u else a in          (* 34-35 *)
  if fltb u b then l else b.                     (* 36-37 *)
Definition limit_inverse := zip3 limit_inverse1.

(** repair.py:60-78: the two masked assignments draw one vector each (of the length of the mask).
    [rand_pass below lo hi x]: one masked assignment. *)
Fixpoint rand_pass (viol : num -> num -> num -> bool) (x lo hi : vec) : prog vec :=
  match x, lo, hi with
  | a :: x', l :: lo', u :: hi' =>
      if viol a l u
      then let* r := uniform l u in let* rs := rand_pass viol x' lo' hi' in Done (r :: rs)
      else let* rs := rand_pass viol x' lo' hi' in Done (a :: rs)
  | _, _, _ => Done []
  end.
Definition rand_repair (x lo hi : vec) : prog vec :=
  let* y := rand_pass (fun a l _ => fltb a l) x lo hi in
  rand_pass (fun a _ u => fltb u a) y lo hi.

(** ** On real numbers, with a rounding [rnd] after every operation *)
Section Rounded.
Variable rnd : R -> R.
Local Open Scope R_scope.

(** repair.py:41-57 *)
Definition wang1 (a l u : R) : R :=
  let b := if Rlt_dec a l then Rmin u (rnd (rnd (2 * l) - a)) else a in    (* 53-54 *)
  if Rlt_dec u b then Rmax l (rnd (rnd (2 * u) - b)) else b.               (* 55-56 *)

(** repair.py:81-97; [Rmod a d]: Python's a % d for d > 0, before rounding *)
Definition Rmod (a d : R) : R := a - d * IZR (Int_part (a / d)).
Definition reflect1 (a l u : R) : R :=
  let b := if Rlt_dec u a then rnd (l + rnd (Rmod a (rnd (u - l)))) else a in   (* 93-94 *)
  if Rlt_dec b l then rnd (l + rnd (Rmod b (rnd (u - l)))) else b.             (* 95-96 *)
End Rounded.

(** ** binary64 *)
Definition b64 := spec_float.
Definition b64_add := SFadd 53 1024.
Definition b64_sub := SFsub 53 1024.
Definition b64_ltb := SFltb.
(** Numpy's float remainder (npy_divmod): C's fmod, which is exact, then, if the result is not zero
    and its sign differs from the divisor's, the (rounded) sum with the divisor.
    fmod of finite numbers on the common exponent e: sign of the dividend, Z.rem on the mantissas. *)
Definition sf_Z (s : bool) (m : positive) : Z := if s then Zneg m else Zpos m.
Definition b64_fmod (x y : b64) : b64 :=
  match x, y with
  | S754_nan, _ | _, S754_nan => S754_nan
  | S754_infinity _, _ => S754_nan
  | _, S754_zero _ => S754_nan
  | _, S754_infinity _ => x
  | S754_zero _, _ => x
  | S754_finite s1 m1 e1, S754_finite s2 m2 e2 =>
      let e := Z.min e1 e2 in
      let a := (sf_Z s1 m1 * 2 ^ (e1 - e))%Z in
      let b := (sf_Z s2 m2 * 2 ^ (e2 - e))%Z in
      binary_normalize 53 1024 (Z.rem a b) e s1
  end.
Definition sf_sign (x : b64) : bool :=
  match x with S754_zero s | S754_infinity s | S754_finite s _ _ => s | S754_nan => false end.
Definition b64_mod (x y : b64) : b64 :=
  match b64_fmod x y with
  | S754_zero _ => S754_zero (sf_sign y)
  | S754_nan => S754_nan
  | r => if eqb (sf_sign r) (sf_sign y) then r else b64_add r y
  end.
Definition b64_reflect (a l u : b64) : b64 :=
  let b := if b64_ltb u a then b64_add l (b64_mod a (b64_sub u l)) else a in
  if b64_ltb b l then b64_add l (b64_mod b (b64_sub u l)) else b.
(** repair.py:41-57 in binary64; np.amin / np.amax of two non-NaN numbers *)
Definition b64_min (a b : b64) : b64 := if b64_ltb b a then b else a.
Definition b64_max (a b : b64) : b64 := if b64_ltb a b then b else a.
Definition b64_two : b64 := S754_finite false 4503599627370496 (-51).
Definition b64_wang (a l u : b64) : b64 :=
  let b := if b64_ltb a l then b64_min u (b64_sub (SFmul 53 1024 b64_two l) a) else a in
  if b64_ltb u b then b64_max l (b64_sub (SFmul 53 1024 b64_two u) b) else b.
