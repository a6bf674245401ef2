(** The constructors and set_parameters of every class, computed for arbitrary keyword arguments (used by C129, C130). *)
From Coq Require Import String List Bool Arith.
From Verif Require Import Task Pycall ParamTable PycallProofs ParamForms.
Import ListNotations.
Local Open Scope string_scope.

Lemma constructed : Forall (fun r : row => forall V const op kw, let '(c, ref, fs) := r in
  andthen (construct V const op table c (without V ("self" :: ref) kw)) (fun o => andthen (get_parameters V table c o) (fun g => Ret (map fst o, g))) = Ret (attributes c, reported V const op kw fs)) constructors.
Proof. unfold constructors. rows ltac:(intros V const op kw; vm_compute; reflexivity). Qed.
Lemma not_constructed : Forall (fun r : row => forall V const op kw, let '(c, ref, fs) := r in
  forall vs, length vs = S (length ref) -> existsb (is_some V) vs = true -> construct V const op table c (overs V ("self" :: ref) vs kw) = Raise EType) constructors.
Proof.
  unfold constructors.
  rows ltac:(intros V const op kw vs L; destruct vs as [|[v0|] [|[v1|] [|[v2|] [|v3 vs]]]]; try discriminate L; clear L; vm_compute; intros H; try reflexivity; discriminate H).
Qed.
Lemma was_set : Forall (fun r : row => forall V const op kw, let '(c, ref, fs) := r in
  forall vs, length vs = length (attributes c) ->
  andthen (set_parameters V const op table c (without V ("self" :: ref) kw) (combine (attributes c) vs))
    (fun o => andthen (get_parameters V table c o) (fun g => Ret (map fst o, g))) = Ret (attributes c, reported V const op kw fs)) setters.
Proof.
  let l := eval vm_compute in setters in change setters with l.
  rows ltac:(intros V const op kw vs L; vm_compute in L; values vs L; vm_compute; reflexivity).
Qed.
Lemma was_not_set : Forall (fun r : row => forall V const op kw, let '(c, ref, fs) := r in
  forall vs, length vs = length (attributes c) ->
  forall us, length us = S (length ref) -> existsb (is_some V) us = true ->
  set_parameters V const op table c (overs V ("self" :: ref) us kw) (combine (attributes c) vs) = Raise EType) setters.
Proof.
  let l := eval vm_compute in setters in change setters with l.
  rows ltac:(intros V const op kw vs L us L'; vm_compute in L; values vs L; destruct us as [|[?|] [|[?|] [|[?|] [|? us]]]]; try discriminate L'; clear L'; vm_compute; intros H; try reflexivity; discriminate H).
Qed.
Lemma never_set : Forall (fun c => forall V const op kw vs, length vs = length (attributes c) ->
  set_parameters V const op table c (overs V ["self"] [None] kw) (combine (attributes c) vs) = Raise EType) broken.
Proof. unfold broken. rows ltac:(intros V const op kw vs L; vm_compute in L; values vs L; vm_compute; reflexivity). Qed.
Lemma never_set_self : Forall (fun c => forall V const op kw vs v, length vs = length (attributes c) ->
  set_parameters V const op table c (overs V ["self"] [Some v] kw) (combine (attributes c) vs) = Raise EType) broken.
Proof. unfold broken. rows ltac:(intros V const op kw vs v L; vm_compute in L; values vs L; vm_compute; reflexivity). Qed.
Lemma set_fresh : Forall (fun r : row => forall V const op kw, let '(c, ref, fs) := r in
  forall vs, length vs = length (attributes c) ->
  set_parameters V const op table c (without V ("self" :: ref) kw) (combine (attributes c) vs)
  = andthen (construct V const op table c (without V ("self" :: ref) kw)) (fun n => Ret (keep V (kept c) (combine (attributes c) vs) n)))
  (filter (fun r => plain (class r)) constructors).
Proof.
  let l := eval vm_compute in (filter (fun r => plain (class r)) constructors) in change (filter (fun r => plain (class r)) constructors) with l.
  rows ltac:(intros V const op kw vs L; vm_compute in L; values vs L; vm_compute; reflexivity).
Qed.
