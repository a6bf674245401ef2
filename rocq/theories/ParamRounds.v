(** set_parameters( **get_parameters()) for every class, computed for arbitrary keyword arguments (used by C131). *)
From Coq Require Import String List Bool Arith.
From Verif Require Import Task Pycall ParamTable PycallProofs ParamForms.
Import ListNotations.
Local Open Scope string_scope.

Lemma round_made : Forall (fun r : row => forall V const op kw, let '(c, ref, fs) := r in
  andthen (construct V const op table c (without V ("self" :: ref) kw)) (round_trip V const op c)
  = andthen (construct V const op table c (without V ("self" :: ref) kw)) (fun o => Ret (forget V const c o))) (filter round constructors).
Proof.
  let l := eval vm_compute in (filter round constructors) in change (filter round constructors) with l.
  rows ltac:(intros V const op kw; vm_compute; reflexivity).
Qed.
Lemma round_again : Forall (fun r : row => forall V const op kw, let '(c, ref, fs) := r in
  forall vs, length vs = length (attributes c) ->
  andthen (set_parameters V const op table c (without V ("self" :: ref) kw) (combine (attributes c) vs)) (round_trip V const op c)
  = andthen (set_parameters V const op table c (without V ("self" :: ref) kw) (combine (attributes c) vs)) (fun o => Ret (forget V const c o)))
  (filter round setters).
Proof.
  let l := eval vm_compute in (filter round setters) in change (filter round setters) with l.
  rows ltac:(intros V const op kw vs L; vm_compute in L; values vs L; vm_compute; reflexivity).
Qed.
Lemma round_raises : Forall (fun c => forall V const op vs, length vs = length (attributes c) ->
  round_trip V const op c (combine (attributes c) vs) = Raise EType) no_round_trip.
Proof. unfold no_round_trip. rows ltac:(intros V const op vs L; vm_compute in L; values vs L; vm_compute; reflexivity). Qed.
