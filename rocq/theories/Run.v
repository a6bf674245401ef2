(** Model of Algorithm.run, bad_run and get_best use
    (/repo/src/niapy/algorithms/algorithm.py:293-332). *)
From Coq Require Import ZArith Lia Bool List.
From Verif Require Import Num Task Prog GetBest.
Import ListNotations.

(** What a subclass of Algorithm provides: [init_population] (algorithm.py:246-264) and
    [run_iteration] (266-291).  [a_coords] gives the coordinates of the members of a population
    (they are [np.ndarray] rows, or the [x] of Individual objects: algorithm.py:244). *)
Record algo : Type := Algo {
  a_pop : Type;
  a_par : Type;                                  (* the **params dictionary *)
  a_coords : a_pop -> list vec;
  a_init : prog (a_pop * list num * a_par);
  a_iter : a_pop -> list num -> vec -> num -> a_par -> prog (a_pop * list num * vec * num * a_par)
}.

(** Callback events with the arguments [population_fitness, best_x, best_fitness]. *)
Inductive event : Type :=
| BeforeRun
| BeforeIter (fit : list num) (xb : vec) (fxb : num)
| AfterIter (fit : list num) (xb : vec) (fxb : num)
| AfterRun.

(** A callback reacts to the events so far (newest first); [Some e]: it raises e.
    Simplification: callbacks do not modify the arrays they are given and do not touch the task. *)
Definition callback := list event -> option exn.

Record rstate (A : algo) : Type := RState {
  r_pop : a_pop A; r_fit : list num; r_xb : vec; r_fxb : num; r_par : a_par A
}.
Arguments RState {A} _ _ _ _ _. Arguments r_pop {A} _. Arguments r_fit {A} _.
Arguments r_xb {A} _. Arguments r_fxb {A} _. Arguments r_par {A} _.

(** algorithm.py:312-316, the while loop; [n] is the fuel (number of iterations allowed by the
    model).  The result carries the world and the events (newest first). *)
Fixpoint loop (E : env) (A : algo) (cb : callback) (n : nat) (s : rstate A) (w : world) (ev : list event)
  : outcome (vec * num) * world * list event :=
  if stopping_condition (e_cfg E) (w_ts w) then (Ret (r_xb s, r_fxb s), w, ev)
  else
    match n with
    | O => (Raise EFuel, w, ev)
    | S n' =>
        let ev1 := BeforeIter (r_fit s) (r_xb s) (r_fxb s) :: ev in
        match cb ev1 with
        | Some e => (Raise e, w, ev1)
        | None =>
            match exec E (a_iter A (r_pop s) (r_fit s) (r_xb s) (r_fxb s) (r_par s)) w with
            | (Raise e, w1) => (Raise e, w1, ev1)
            | (Ret (pop, fit, xb, fxb, par), w1) =>
                let ev2 := AfterIter fit xb fxb :: ev1 in
                match cb ev2 with
                | Some e => (Raise e, w1, ev2)
                | None =>
                    loop E A cb n' (RState pop fit xb fxb par)
                      (World (next_iter (w_ts w1)) (w_h w1) (w_pos w1)) ev2
                end
            end
        end
    end.

(** algorithm.py:309-318, the body of the try block. *)
Definition run_body (E : env) (A : algo) (cb : callback) (n : nat) (w : world)
  : outcome (vec * num) * world * list event :=
  let ev0 := [BeforeRun] in
  match cb ev0 with
  | Some e => (Raise e, w, ev0)
  | None =>
      match exec E (a_init A) w with
      | (Raise e, w1) => (Raise e, w1, ev0)
      | (Ret (pop, fit, par), w1) =>
          match get_best (a_coords A pop) fit None PInf with
          | Raise e => (Raise e, w1, ev0)
          | Ret (xb, fxb) =>
              match loop E A cb n (RState pop fit xb fxb par) w1 ev0 with
              | (Raise e, w2, ev) => (Raise e, w2, ev)
              | (Ret (x, f), w2, ev) =>
                  match cb (AfterRun :: ev) with
                  | Some e => (Raise e, w2, AfterRun :: ev)
                  | None => (Ret (x, sgn (c_opt (e_cfg E)) f), w2, AfterRun :: ev)
                  end
              end
          end
      end
  end.

(** algorithm.py:293-323: [main] says whether this is the main thread of the main process;
    [exc] is the attribute self.exception.  [ROut None] is the return value (None, None). *)
Definition run (E : env) (A : algo) (cb : callback) (n : nat) (main : bool) (exc : option exn) (w : world)
  : outcome (option (vec * num)) * option exn * world * list event :=
  match run_body E A cb n w with
  | (Ret r, w', ev) => (Ret (Some r), exc, w', ev)
  | (Raise e, w', ev) => if main then (Raise e, exc, w', ev) else (Ret None, Some e, w', ev)
  end.

(** algorithm.py:325-332 *)
Definition bad_run (exc : option exn) : bool := match exc with Some _ => true | None => false end.
