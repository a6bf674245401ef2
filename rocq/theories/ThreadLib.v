(** Specification vocabulary for loops over a population whose members are handled one after the other, and the rule for it. *)
From Coq Require Import ZArith Lia Bool List.
From Verif Require Import Num Task TaskSpec TaskProofs TaskProofs2 Prog Wp GetBest Run RunSpec RunProofs RunProofs2 AlgoLib Fops AlgTac StepSpec StepLib.
Import ListNotations.

(** member a becomes b, the log goes from l to l'; the next member starts from l' *)
Inductive threaded {A B} (R : A -> B -> elog -> elog -> Prop) : list A -> list B -> elog -> elog -> Prop :=
| th_nil : forall l, threaded R [] [] l l
| th_cons : forall a b xs ys l l1 l2, R a b l l1 -> threaded R xs ys l1 l2 -> threaded R (a :: xs) (b :: ys) l l2.
Lemma threaded_len : forall A B (R : A -> B -> elog -> elog -> Prop) xs ys l l', threaded R xs ys l l' -> length ys = length xs.
Proof. intros A B R xs ys l l' H. induction H; cbn [length]; congruence. Qed.
Lemma threaded_F2 : forall A B (R : A -> B -> elog -> elog -> Prop) xs ys l l', threaded R xs ys l l' -> Forall2 (fun a b => exists m m', R a b m m') xs ys.
Proof. intros A B R xs ys l l' H. induction H; constructor; eauto. Qed.
Lemma w_threaded : forall A B K (R : A -> B -> elog -> elog -> Prop) (f : A -> prog B) xs (Q : list B -> elog -> Prop) l,
  (forall a (Q' : B -> elog -> Prop) m, In a xs -> (forall b m', R a b m m' -> Q' b m') -> wp K (f a) Q' m) ->
  (forall ys l', threaded R xs ys l l' -> Q ys l') -> wp K (mapM f xs) Q l.
Proof.
  intros A B K R f xs. induction xs as [|a xs IH]; intros Q l Hf HQ; cbn [mapM]; [apply w_done; apply HQ; constructor|].
  apply wp_bind. apply Hf; [left; auto|]. intros b m' Hb. apply wp_bind. apply IH; [intros; apply Hf; auto; right; auto|].
  intros ys l' H. apply w_done. apply HQ. econstructor; eauto.
Qed.
