(** The benchmark functions (src/niapy/problems) over the real numbers.
    Each definition is the body of one _evaluate, array operation by array operation; binary64 rounding is not modelled.
    Problem.evaluate (problem.py:51-63) refuses an array whose length is not self.dimension, so self.dimension is written
    [length x] here.  [None]: numpy raises. *)
From Coq Require Import Reals ZArith List Bool Arith.
Import ListNotations.
Open Scope R_scope.

(** ** Array operations *)
Definition rsum (l : list R) : R := fold_right Rplus 0 l.                     (* np.sum *)
Definition rprod (l : list R) : R := fold_right Rmult 1 l.                    (* np.prod *)
Fixpoint map2 {A B C} (f : A -> B -> C) (x : list A) (y : list B) : list C :=
  match x, y with a :: x', b :: y' => f a b :: map2 f x' y' | _, _ => [] end. (* elementwise, equal lengths *)
Definition arange (a b : nat) : list R := map INR (seq a (b - a)).            (* np.arange *)
Definition floor (a : R) : R := IZR (Int_part a).                             (* np.floor *)
(** np.round: to the nearest integer, ties to even *)
Definition rround (a : R) : R :=
  let n := Int_part a in
  if Rlt_dec (a - IZR n) (1 / 2) then IZR n
  else if Rlt_dec (1 / 2) (a - IZR n) then IZR (n + 1)
  else if Z.even n then IZR n else IZR (n + 1).
Definition init {A} (l : list A) : list A := removelast l.                    (* x[:-1] *)
(** x[k::4] for k = 0; [skipn k] first for the others *)
Fixpoint every4 (l : list R) : list R :=
  match l with a :: _ :: _ :: _ :: t => a :: every4 t | a :: _ => [a] | [] => [] end.
(** numpy's broadcasting of two one-dimensional arrays; None: ValueError *)
Definition bcast (f : R -> R -> R) (x y : list R) : option (list R) :=
  if (length x =? length y)%nat then Some (map2 f x y)
  else match x, y with [a], _ => Some (map (f a) y) | _, [b] => Some (map (fun a => f a b) x) | _, _ => None end.
Definition obind {A B} (o : option A) (f : A -> option B) : option B := match o with Some a => f a | None => None end.
(** np.roll(x, 1), np.roll(x, -1) *)
Definition roll1 (l : list R) : list R := match l with [] => [] | _ => last l 0 :: removelast l end.
Definition rollm1 (l : list R) : list R := match l with [] => [] | a :: t => t ++ [a] end.
(** a ** b for a base that is not negative and a real exponent b > 0 *)
Definition rpow (a b : R) : R := if Req_EM_T a 0 then 0 else Rpower a b.
(** sum(m, axis=0) of a matrix with c columns *)
Definition sum0 (c : nat) (m : list (list R)) : list R := fold_right (map2 Rplus) (repeat 0 c) m.

(** ** sphere.py *)
(** sphere.py:72-73 *)
Definition sphere (x : list R) : R := rsum (map (fun a => a ^ 2) x).
(** sphere.py:134-136 *)
Definition sphere2 (x : list R) : R := rsum (map2 pow (map Rabs x) (seq 2 (length x))).
(** np.tril (sphere.py:199): the entries right of the diagonal become 0 *)
Definition tril (m : list (list R)) : list (list R) :=
  map2 (fun r row => map2 (fun c a => if (c <=? r)%nat then a else 0) (seq 0 (length row)) row) (seq 0 (length m)) m.
(** sphere.py:197-200 *)
Definition sphere3 (x : list R) : R :=
  rsum (sum0 (length x) (map (map (fun a => a ^ 2)) (tril (repeat x (length x))))).
(** sum_squares.py:71-72 *)
Definition sum_squares (x : list R) : R := rsum (map2 Rmult (arange 1 (length x + 1)) (map (fun a => a ^ 2) x)).
(** schumer_steiglitz.py:72-73 *)
Definition schumer_steiglitz (x : list R) : R := rsum (map (fun a => a ^ 4) x).
(** chung_reynolds.py:72-73 *)
Definition chung_reynolds (x : list R) : R := rsum (map (fun a => a ^ 2) x) ^ 2.
(** step.py:75-76, 141-142, 207-208 *)
Definition step (x : list R) : R := rsum (map floor (map Rabs x)).
Definition step2 (x : list R) : R := rsum (map (fun a => floor (a + 0.5) ^ 2) x).
Definition step3 (x : list R) : R := rsum (map (fun a => floor (a ^ 2)) x).
(** stepint.py:72-73 *)
Definition stepint (x : list R) : R := 25 + rsum (map floor x).
(** schwefel.py:70-71 *)
Definition schwefel (x : list R) : R :=
  418.982887272433799807913601398 * INR (length x) - rsum (map (fun a => a * sin (sqrt (Rabs a))) x).
(** schwefel.py:135-136; np.amax of an empty array raises ValueError *)
Definition schwefel221 (x : list R) : option R :=
  match map Rabs x with [] => None | a :: t => Some (fold_left Rmax t a) end.
(** schwefel.py:200-201 *)
Definition schwefel222 (x : list R) : R := rsum (map Rabs x) + rprod (map Rabs x).
(** qing.py:74-75 *)
Definition qing (x : list R) : R :=
  rsum (map (fun a => a ^ 2) (map2 Rminus (map (fun a => a ^ 2) x) (arange 1 (length x + 1)))).
(** bent_cigar.py:71-72; x[0] of an empty array raises IndexError *)
Definition bent_cigar (x : list R) : option R :=
  match x with [] => None | a :: t => Some (a ^ 2 + 1000000 * rsum (map Rsqr t)) end.
(** discus.py:71-72 *)
Definition discus (x : list R) : option R :=
  match x with [] => None | a :: t => Some (a * 1000000 + rsum (map Rsqr t)) end.
(** powell.py:71-81 *)
Definition powell (x : list R) : option R :=
  let x1 := every4 x in let x2 := every4 (skipn 1 x) in let x3 := every4 (skipn 2 x) in let x4 := every4 (skipn 3 x) in
  obind (bcast (fun a b => (a + 10 * b) ^ 2) x1 x2) (fun t1 =>
  obind (bcast (fun a b => 5 * (a - b) ^ 2) x3 x4) (fun t2 =>
  obind (bcast (fun a b => (a - 2 * b) ^ 4) x2 x3) (fun t3 =>
  obind (bcast (fun a b => 10 * (a - b) ^ 4) x1 x4) (fun t4 =>
  obind (bcast Rplus t1 t2) (fun s => obind (bcast Rplus s t3) (fun s => obind (bcast Rplus s t4) (fun s => Some (rsum s)))))))).
(** elliptic.py:71-73; one dimension divides 0 by 0 (nan), modelled from two dimensions on *)
Definition elliptic (x : list R) : R :=
  rsum (map2 Rmult (map (fun i => Rpower 1000000 (i / (INR (length x) - 1))) (arange 0 (length x))) (map (fun a => a ^ 2) x)).
(** rastrigin.py:71-72 *)
Definition rastrigin (x : list R) : R :=
  10 * INR (length x) + rsum (map (fun a => a * a - 10 * cos (2 * PI * a)) x).
(** rosenbrock.py:74-75 *)
Definition rosenbrock (x : list R) : R :=
  rsum (map2 (fun b a => 100 * (b - a ^ 2) ^ 2 + (1 - a) ^ 2) (tl x) (init x)).
(** griewank.py:74-78 *)
Definition griewank (x : list R) : R :=
  rsum (map (fun a => a * a / 4000) x) - rprod (map2 (fun a i => cos (a / sqrt i)) x (arange 1 (length x + 1))) + 1.
(** griewank.py:140-143 *)
Definition griewank_rosenbrock (x : list R) : R :=
  let x1 := map2 (fun b a => 100 * (b - a ^ 2) ^ 2 + (1 - a) ^ 2) (tl x) (init x) in
  rsum (map2 (fun a i => a * a / 4000 - cos (a / sqrt i)) x1 (arange 1 (length x))).
(** ackley.py:84-91 *)
Definition ackley (a b c : R) (x : list R) : R :=
  let val1 := rsum (map Rsqr x) in
  let val2 := rsum (map (fun t => cos (c * t)) x) in
  let temp1 := - b * sqrt (val1 / INR (length x)) in
  let temp2 := val2 / INR (length x) in
  - a * exp temp1 - exp temp2 + a + exp 1.
(** salomon.py:77-79 *)
Definition salomon (x : list R) : R :=
  let val := sqrt (rsum (map (fun a => a ^ 2) x)) in 1 - cos (2 * PI * val) + 0.1 * val.
(** ridge.py:70-72 *)
Definition ridge (x : list R) : R :=
  rsum (map (fun a => a ^ 2) (map (fun i => rsum (firstn i x)) (seq 1 (length x)))).
(** zakharov.py:70-73 *)
Definition zakharov (x : list R) : R :=
  let sum1 := rsum (map (fun a => a * a) x) in
  let sum2 := rsum (map2 (fun i a => 0.5 * i * a) (arange 1 (length x + 1)) x) in
  sum1 + sum2 ^ 2 + sum2 ^ 4.
(** whitley.py:81-85; row i, column j of the matrix tmp *)
Definition whitley (x : list R) : R :=
  rsum (map (fun xi => rsum (map (fun xj =>
    let tmp := 100 * (xi ^ 2 - xj) ^ 2 + (1 - xj) ^ 2 in tmp ^ 2 / 4000 - cos tmp + 1) x)) x).
(** trid.py:71-74 *)
Definition trid (x : list R) : R :=
  rsum (map (fun a => (a - 1) ^ 2) x) - rsum (map2 Rmult (tl x) (init x)).
(** csendes.py:73-75 *)
Definition csendes (x : list R) : R :=
  rsum (map (fun a => a ^ 6 * (2 + sin (1 / a))) (filter (fun a => if Req_EM_T a 0 then false else true) x)).
(** quintic.py:77-78 *)
Definition quintic (x : list R) : R :=
  rsum (map (fun a => Rabs (a ^ 5 - 3 * a ^ 4 + 4 * a ^ 3 + 2 * a ^ 2 - 10 * a - 4)) x).
(** dixon_price.py:71-74; x[1:dimension-1] *)
Definition dixon_price (x : list R) : option R :=
  match x with
  | [] => None
  | a :: t =>
      Some ((a - 1) ^ 2 + rsum (map2 Rmult (arange 2 (length x))
              (map (fun c => c ^ 2) (map2 (fun b c => 2 * b ^ 2 - c) (skipn 2 x) (skipn 1 (firstn (length x - 1) x))))))
  end.
(** levy.py:71-77 *)
Definition levy (x : list R) : option R :=
  let w := map (fun a => 1 + (a - 1) / 4) x in
  match w with
  | [] => None
  | w0 :: _ =>
      Some (sin (PI * w0) ^ 2
            + rsum (map (fun a => (a - 1) ^ 2 * (1 + 10 * sin (PI * a + 1))) (init w))
            + (last w 0 - 1) ^ 2 * (1 + sin (2 * PI * last w 0) ^ 2))
  end.
(** alpine.py:72-73, 138-139 *)
Definition alpine1 (x : list R) : R := rsum (map (fun a => Rabs (sin a + 0.1 * a)) x).
Definition alpine2 (x : list R) : R := rprod (map (fun a => sqrt a * sin a) x).
(** cosine_mixture.py:71-72 *)
Definition cosine_mixture (x : list R) : R :=
  - 0.1 * rsum (map (fun a => cos (5 * PI * a)) x) - rsum (map (fun a => a ^ 2) x).
(** happy_cat.py:77-80 (alpha > 0) *)
Definition happy_cat (alpha : R) (x : list R) : R :=
  rsum (map (fun a => rpow (Rabs (a * a - INR (length x))) alpha) x)
  + rsum (map (fun a => (0.5 * a * a + a) / INR (length x)) x) + 0.5.
(** hgbat.py:70-73 *)
Definition hgbat (x : list R) : R :=
  let val1 := rsum (map (fun a => a ^ 2) x) in
  let val2 := rsum x in
  sqrt (Rabs (val1 * val1 - val2 ^ 2)) + (0.5 * val1 + val2) / INR (length x) + 0.5.
(** katsuura.py:69-73 *)
Definition katsuura (x : list R) : R :=
  rprod (map2 (fun a i => rsum (map (fun k => rround (2 ^ k * a) * / 2 ^ k) (seq 1 32)) * i + 1) x (arange 1 (length x + 1))).
(** michalewicz.py:75-76; the exponent 2m, m a natural number *)
Definition michalewicz (m : nat) (x : list R) : R :=
  - rsum (map2 (fun a i => sin a * sin (i * a ^ 2 / PI) ^ (2 * m)) x (arange 1 (length x + 1))).
(** perm.py:72-77: the matrix has row r, column j, with jj[r][j] = j and ii broadcast along the rows; summed along axis 0 *)
Definition perm (beta : R) (x : list R) : R :=
  let row := map2 (fun a j => (INR j + beta) * (a ^ j - (1 / INR j) ^ j)) x (seq 1 (length x)) in
  rsum (map (fun a => a ^ 2) (sum0 (length x) (repeat row (length x)))).
(** log10 *)
Definition log10 (a : R) : R := ln a / ln 10.
(** pinter.py:87-99 *)
Definition pinter (x : list R) : R :=
  let sub := roll1 x in let add := rollm1 x in let indices := arange 1 (length x + 1) in
  let a := map2 Rplus (map2 (fun s t => s * sin t) sub x) (map sin add) in
  let b := map2 (fun st ad => st + 3 * ad) (map2 (fun s t => s * s - 2 * t) sub x) add in
  let b := map2 (fun u t => u - cos t + 1) b x in
  rsum (map2 (fun i t => i * t * t) indices x)
  + rsum (map2 (fun i t => 20 * i * sin t ^ 2) indices a)
  + rsum (map2 (fun i t => i * log10 (1 + i * t ^ 2)) indices b).
(** schaffer.py:69-70, 131-132 (two dimensions), 198-202 *)
Definition schaffer_n2 (a b : R) : R :=
  0.5 + (sin (a ^ 2 - b ^ 2) ^ 2 - 0.5) / (1 + 0.001 * (a ^ 2 + b ^ 2)) ^ 2.
Definition schaffer_n4 (a b : R) : R :=
  0.5 + (cos (sin (a ^ 2 - b ^ 2)) ^ 2 - 0.5) / (1 + 0.001 * (a ^ 2 + b ^ 2)) ^ 2.
Definition pair_of (f : R -> R -> R) (x : list R) : option R := match x with [a; b] => Some (f a b) | _ => None end.
Definition expanded_schaffer (x : list R) : R :=
  let tmp := map2 (fun a b => a ^ 2 + b ^ 2) x (rollm1 x) in
  rsum (map (fun t => 0.5 + (sin (sqrt t) ^ 2 - 0.5) / (1 + 0.001 * t) ^ 2) tmp).
(** styblinski_tang.py:76-77 *)
Definition styblinski_tang (x : list R) : R := 0.5 * rsum (map (fun a => a ^ 4 - 16 * a ^ 2 + 5 * a) x).
(** weierstrass.py:76-81; b a natural number *)
Definition weierstrass (a : R) (b kmax : nat) (x : list R) : R :=
  let k := seq 0 (kmax + 1) in
  let t1 := map (fun j => map (fun t => a ^ j * cos (2 * PI * INR b ^ j * (t + 0.5))) x) k in
  let t2 := INR (length x) * rsum (map (fun j => a ^ j * cos (PI * INR b ^ j)) k) in
  rsum (sum0 (length x) t1) - t2.
(** schwefel.py:263-271; np.fmod has the sign of the dividend *)
Definition fmod (a m : R) : R := let n := IZR (Int_part (Rabs a / m)) in (if Rle_dec 0 a then 1 else -1) * (Rabs a - n * m).
Definition modified_schwefel (x : list R) : R :=
  let d := INR (length x) in
  let val := fun a =>
    let xx := a + 420.9687462275036 in
    let xm := fmod xx 500 in
    if Rlt_dec 500 a then (500 - xm) * sin (sqrt (Rabs (500 - xm))) - (xx - 500) ^ 2 / (10000 * d)
    else if Rlt_dec a (-500) then (xm - 500) * sin (sqrt (Rabs (xm - 500))) + (xx - 500) ^ 2 / (10000 * d)
    else xx * sin (sqrt (Rabs xx)) in
  418.9829 * d - rsum (map val x).
