(** C24: runs of SHADE, L-SHADE and iL-SHADE end when the number of evaluations is limited. *)
From Coq Require Import ZArith Lia Bool List.
From Verif Require Import Num Task TaskSpec Prog GetBest Run RunSpec AlgoLib Fops Indiv Reach AlgDE AlgPSO AlgBasic AlgBasic2 AlgMod AlgShade Progress PropertiesProgress PropertiesProgress2 B64 ExLib ExLib2.
Import ListNotations.

#[local] Hint Resolve nf_py_round : nf.
Lemma nf_py_int : forall F x, nf (lift (py_int F x)).
Proof. intros F [| |z|]; simpl; auto; discriminate. Qed.
Lemma nf_next_size : forall F C n m, nf (lift (next_size F C n m)).
Proof. intros. unfold next_size. apply nf_py_round. Qed.
Lemma nf_cauchy : forall F pi d loc gamma, nf (cauchy F pi d loc gamma).
Proof. intros F pi d. induction d as [|d IH]; intros loc gamma; cbn [cauchy]; [discriminate|]. apply nf_bind; [apply nf_random|]. intros r. destruct (fltb _ _); [simpl; auto|apply IH]. Qed.
#[local] Hint Resolve nf_py_int nf_next_size nf_cauchy : nf.
Lemma nf_gen_params : forall F pi C p nfe st, nf (gen_params F pi C p nfe st).
Proof. intros. unfold gen_params, sh_params, il_params, normal1. destruct (sh_kd p); nfs. Qed.
Lemma nf_cross_pbest : forall F C xs ic f cr n arc cnt, nf (cross_pbest F C xs ic f cr n arc cnt).
Proof. intros. unfold cross_pbest, pick. nfs. Qed.
#[local] Hint Resolve nf_gen_params nf_cross_pbest : nf.
Lemma nf_sh_select : forall F asz new pop arc cnt, nf (sh_select F asz pop new arc cnt).
Proof.
  intros F asz new. induction new as [|e new IH]; intros [|o pop] arc cnt; cbn [sh_select]; try (simpl; auto; discriminate).
  destruct (feqb _ _); [apply nf_bind; auto; intros; simpl; auto|]. destruct (fltb _ _); [|apply nf_bind; auto; intros; simpl; auto].
  apply nf_bind; [unfold sh_archive; nfs|]. intros a. apply nf_bind; [apply IH|]. intros; simpl; auto.
Qed.
Lemma nf_sh_memory : forall F p ss st, nf (sh_memory F p ss st).
Proof. intros. unfold sh_memory. destruct ss; [simpl; auto|]. cbv zeta. nfs. Qed.
Lemma nf_sh_post : forall F C p pop st, nf (sh_post F C p pop st).
Proof. intros. unfold sh_post. destruct (sh_kd p); [simpl; auto| |]; cbv zeta; apply nf_bind; try apply nf_view; intros v; apply nf_bind; try apply nf_next_size; intros z; destruct (_ <? _); simpl; auto; nfs. Qed.
#[local] Hint Resolve nf_sh_select nf_sh_memory nf_sh_post : nf.
Theorem C24_shade : forall F pi C p E, terminates (shade F pi C p) E.
Proof.
  intros F pi C p E. apply ends; [cbn [a_init shade]; unfold sh_init; nfs|]. intros st wd HR _. cbn [a_iter shade]. unfold sh_iter. cbv zeta.
  set (pop := map fst _). clearbody pop. unfold sh_evolve. destruct pop as [|e0 pop0].
  - cbn [bind]. unfold sh_evolve_at, view. cbn [mapM bind length seq combine me]. intros v. apply me_right; [apply nf_bind; [apply nf_py_round|intros; simpl; auto]|]. intros new.
    apply me_right; [apply nf_py_round|]. intros asz. destruct new as [|e new]; cbn [sh_select]; [|discriminate]. cbn [bind j_xs j_fits map]. discriminate.
  - set (pop := e0 :: pop0). apply me_left.
    + assert (P0 : 0 < length pop) by (unfold pop; simpl; lia). clearbody pop. apply me_right; [apply nf_view|]. intros v. unfold sh_evolve_at. cbv zeta. apply (me_bind _ _ _ _ (fun ws => length ws = length pop)); [apply nf_mapM; intros; apply nf_gen_params|apply rets_mapM_len| |intros; nfs].
      intros ws Lw. apply me_right; [apply nf_py_round|]. intros k. apply (me_bind _ _ _ _ (fun xs => length xs = length (combine (seq 0 (length pop)) ws))); [apply nf_mapM; intros; apply nf_cross_pbest|apply rets_mapM_len| |intros; nfs].
      intros xs Lx. rewrite combine_length, seq_length in Lx. apply me_mapM; [|intros; apply me_left; [apply me_ind_evaluate|intros; simpl; auto]].
      destruct xs as [|x xs]; [|destruct ws as [|w ws]]; [simpl in Lx; lia|simpl in Lw; lia|discriminate].
    + intros new. nfs.
Qed.
Example C24_shade_ran : ran prE (shade fxx (q 3 1) (e_cfg prE) (SHPar LSHADE 4 (q 1 1) (q 1 4) f0 2 40)) 9 = Some (2, 9).
Proof. vm_compute. reflexivity. Qed.
Print Assumptions C24_shade.
