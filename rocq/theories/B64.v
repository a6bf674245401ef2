(** binary64 as an interpretation of [fops]: Coq's SpecFloat on the numbers of Num.v.
    Used in counterexamples that depend on rounding.  The operations + - * / sqrt, the remainder, abs,
    floor, sign and int are those of IEEE 754 (round to nearest even) up to the sign of zero; exp, log,
    sin, cos, tan, gamma and general powers are placeholders and must not matter where this is used. *)
From Coq Require Import ZArith Bool List SpecFloat.
From Verif Require Import Num Task Prog Fops Repair.
Import ListNotations.

(** [Fin z] stands for z * 2^-1074; every finite binary64 is one *)
Definition to_sf (a : num) : spec_float :=
  match a with
  | NaN => S754_nan | PInf => S754_infinity false | NInf => S754_infinity true
  | Fin z => binary_normalize 53 1024 z (-1074) false
  end.
Definition of_sf (x : spec_float) : num :=
  match x with
  | S754_nan => NaN | S754_infinity false => PInf | S754_infinity true => NInf | S754_zero _ => Fin 0
  | S754_finite s m e => Fin ((if s then Zneg m else Zpos m) * 2 ^ (e + 1074))
  end.
Definition sf2 (f : spec_float -> spec_float -> spec_float) (a b : num) : num := of_sf (f (to_sf a) (to_sf b)).
(** the binary64 nearest to n/d for |n|, d < 2^53 *)
Definition b64_lit (n d : Z) : num :=
  of_sf (SFdiv 53 1024 (binary_normalize 53 1024 n 0 false) (binary_normalize 53 1024 d 0 false)).
Definition one64 : num := Fin (2 ^ 1074).
Definition b64ops : fops := {|
  fadd := sf2 (SFadd 53 1024); fsub := sf2 (SFsub 53 1024); fmul := sf2 (SFmul 53 1024);
  fdiv := sf2 (SFdiv 53 1024); fmod := sf2 b64_mod;
  fpow := fun a b => if feqb b (b64_lit 2 1) then sf2 (SFmul 53 1024) a a else a;
  fexp := fun _ => one64; fln := fun _ => Fin 0; fsqrt := fun a => of_sf (SFsqrt 53 1024 (to_sf a));
  fsin := fun _ => Fin 0; fcos := fun _ => one64; ftan := fun _ => Fin 0;
  fabs := fun a => match a with Fin z => Fin (Z.abs z) | NInf => PInf | _ => a end;
  ffloor := fun a => match a with Fin z => Fin ((z / 2 ^ 1074) * 2 ^ 1074) | _ => a end;
  fgamma := fun _ => one64;
  fsign := fun a => match a with Fin z => Fin (Z.sgn z * 2 ^ 1074) | PInf => one64 | NInf => Fin (- 2 ^ 1074) | NaN => NaN end;
  flit := b64_lit;
  fint := fun a => match a with Fin z => Z.quot z (2 ^ 1074) | _ => 0%Z end
|}.

Example b64_tenths : fadd b64ops (fadd b64ops (b64_lit 1 10) (b64_lit 1 10)) (b64_lit 1 10) <> b64_lit 3 10.
Proof. vm_compute. congruence. Qed.
