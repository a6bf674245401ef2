(** Signs of binary64 quotients. *)
From Coq Require Import ZArith Lia Bool List SpecFloat.
From Verif Require Import Num Task Fops B64.

(** ** Division keeps non-negative numbers non-negative *)
Definition pos_sf (a : spec_float) : Prop := match a with S754_nan => True | S754_zero s | S754_infinity s | S754_finite s _ _ => s = false end.
Lemma of_sf_pos : forall a, pos_sf a -> of_sf a <> NaN -> fleb f0 (of_sf a) = true.
Proof.
  intros [s|s| |s m e] H Hn; simpl in *; subst; auto; try congruence. apply Z.leb_le. apply Z.mul_nonneg_nonneg; [lia|apply Z.pow_nonneg; lia].
Qed.
Lemma round_pos : forall m e l, pos_sf (binary_round_aux 53 1024 false m e l).
Proof.
  intros m e l. unfold binary_round_aux. destruct (shr_fexp _ _ _ _ _) as [mr e']. destruct (shr_fexp _ _ _ _ _) as [mr' e'']. destruct (shr_m mr'); simpl; auto.
  destruct (Z.leb _ _); simpl; auto.
Qed.
Lemma to_sf_pos : forall a, fleb f0 a = true -> pos_sf (to_sf a).
Proof.
  intros [| |z|] H; try discriminate; [|reflexivity]. apply Z.leb_le in H. unfold to_sf, binary_normalize.
  destruct z; [reflexivity| |lia]. unfold binary_round. destruct (shl_align _ _ _) as [a b]. apply round_pos.
Qed.
Lemma div_pos : forall a b, pos_sf a -> pos_sf b -> pos_sf (SFdiv 53 1024 a b).
Proof.
  intros [s|s| |s m e] [s'|s'| |s' m' e'] H1 H2; simpl in *; subst; auto. destruct (SFdiv_core_binary _ _ _ _ _ _) as [[a b] c]. apply round_pos.
Qed.
Theorem div64_nonneg : forall d t, fleb f0 d = true -> fltb f0 t = true -> fdiv b64ops d t <> NaN -> fleb f0 (fdiv b64ops d t) = true.
Proof. intros d t Hd Ht Hn. apply of_sf_pos; auto. apply div_pos; apply to_sf_pos; auto. apply fltb_fleb; auto. Qed.
