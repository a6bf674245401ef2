(** Run theorems under a condition on the values of the problem. *)
From Coq Require Import ZArith Lia Bool List Sorted.
From Verif Require Import Num Task TaskSpec TaskProofs TaskProofs2 Prog Wp GetBest Run RunSpec RunProofs RunProofs2 AlgoLib Fops AlgTac StepSpec StepLib.
Import ListNotations.

(** every logged value satisfies V *)
Definition vals (V : num -> Prop) (l : elog) : Prop := forall x v, In (x, v) l -> V v.
Lemma vals_ext : forall V l l', ext l l' -> vals V l' -> vals V l.
Proof. intros V l l' He H x v Hi. apply (H x). eapply ext_In; eauto. Qed.
(** every value of the problem, in the internal sign, satisfies V *)
Definition values_ok (V : num -> Prop) (E : env) : Prop := forall h x v, e_prob E h x = Ret v -> V (sgn (c_opt (e_cfg E)) v).
Definition KVX (C : cfg) (V : num -> Prop) (P : vec -> Prop) (X : exn -> Prop) : wctx :=
  WCtx P (fun x y => length x = c_dim C -> inside C y) (fun v => v <> NaN /\ V v) (fun e => e = EFuel \/ X e).
Lemma wp_vals : forall A C V P X (p : prog A) Q l, vals V l -> wp (KPX C P X) p Q l -> wp (KVX C V P X) p (fun a l' => vals V l' /\ Q a l') l.
Proof.
  intros A C V P X p Q. induction p as [a|e|x k IH|x k IH|lo hi k IH|k IH|n k IH|k IH]; intros l Hv H; cbn [wp] in *; auto.
  destruct H as (G1 & G2 & G3). split; [auto|]. split; [|exact (IH _ _ Hv G3)]. intros v [N HV]. apply IH; [|apply G2; auto].
  intros y u [Q1|Hi]; [injection Q1 as <- <-; auto|eauto].
Qed.
Lemma env_ok_KV : forall V P X E, no_nan (e_prob E) -> repair_ok E -> values_ok V E -> env_ok (KVX (e_cfg E) V P X) E.
Proof.
  intros V P X E Hn Hr HV. split; [|split; [|reflexivity]].
  - intros p x. exact (Hr p x).
  - intros h x v H. simpl. split; [|eapply HV; eauto]. intros Q. apply (proj1 (sgn_nan _ _)) in Q. eapply Hn; eauto.
Qed.
Lemma algo_ok_kv : forall C V P X A Inv, algo_ok (KPX C P X) A Inv -> algo_ok (KVX C V P X) A (fun s l => vals V l /\ Inv s l).
Proof.
  intros C V P X A Inv [H0 H1]. constructor.
  - apply wp_vals; [intros x v []|exact H0].
  - intros s l [Hv HI]. apply wp_vals; auto.
Qed.
Theorem best_run_v : forall V P X E A (I : a_pop A -> list num -> vec -> num -> a_par A -> elog -> Prop),
  no_nan (e_prob E) -> repair_ok E -> values_ok V E ->
  init_c (KPX (e_cfg E) P X) A I -> iter_c (KPX (e_cfg E) P X) A I ->
  (forall pop fit xb fxb par l, vals V l -> I pop fit xb fxb par l -> length xb = c_dim (e_cfg E) /\ Good l xb fxb) ->
  best_run_p P X E A.
Proof.
  intros V P X E A I Hn Hr HV H1 H2 HI cb n pos r w' ev H.
  destruct (run_inv _ _ _ _ cb n pos (env_ok_KV V P X E Hn Hr HV) (algo_ok_kv _ V _ _ _ _ (algo_ok_c _ _ _ H1 H2)) (fun a b => fleb a b = true)) with (r := r) (w' := w') (ev := ev)
    as (P1 & P2 & P3 & P4); auto.
  - intros s l s' l' [V1 I1] [V2 I2] He. destruct (HI _ _ _ _ _ _ V1 I1) as (_ & (S1 & L1 & N1)). destruct (HI _ _ _ _ _ _ V2 I2) as (_ & (S2 & L2 & N2)).
    destruct S1 as [->|S1]; [apply fleb_PInf; auto|]. eapply L2. eapply ext_In; eauto.
  - intros a b c. apply fleb_trans.
  - split; [|split; auto].
    + intros p Hp. rewrite Forall_forall in P1. apply P1; auto.
    + destruct r as [[x v]|e].
      * destruct P4 as (s & [V1 I1] & -> & ->). destruct (HI _ _ _ _ _ _ V1 I1) as (Hl & G).
        destruct (Good_best_of _ _ _ _ G) as [B1 B2]. split; auto. split; auto.
        eapply best_of_unique; eauto. apply P2.
      * destruct P4 as [[P4|P4]|[P4|[P4|P4]]]; auto.
Qed.
