(** Examples and refuted parts for the theorems of PropertiesShade.v (C89-C93). *)
From Coq Require Import ZArith Lia Bool List Permutation Sorting.Sorted SpecFloat Reals Lra.
From Flocq Require Import Core Relative.
From Verif Require Import Num Task TaskSpec TaskProofs TaskProofs2 Prog Wp GetBest Run RunSpec RunProofs RunProofs2
  AlgoLib Fops AlgTac StepSpec StepLib Indiv IndivLib AlgDE DESpec AlgDEProofs AlgPSO AlgPSOProofs Reach AlgBasic AlgBasic2 AlgBasic2Proofs Repair PropertiesRepair B64 B64Spec B64Int B64Mag ExLib ExLib2
  PropertiesDE PropertiesBasic2 AlgMod AlgModProofs PropertiesMod Guard AlgShade AlgShadeProofs PropertiesShade.
Import ListNotations.
Open Scope nat_scope.

(** ** Examples *)
Module ExShade.
  (** binary64 with a tangent that is not constant *)
  Definition t64 : fops := {|
    fadd := fadd b64ops; fsub := fsub b64ops; fmul := fmul b64ops; fdiv := fdiv b64ops; fpow := fpow b64ops; fmod := fmod b64ops;
    fexp := fexp b64ops; fln := fln b64ops; fsqrt := fsqrt b64ops; fsin := fsin b64ops; fcos := fcos b64ops;
    ftan := fun x => x; fabs := fabs b64ops; ffloor := ffloor b64ops; fgamma := fgamma b64ops; fsign := fsign b64ops;
    flit := flit b64ops; fint := fint b64ops |}.
  Definition C9 := Cfg Minimization 2 [N' 0; N' 0] [N' 1; N' 1] (LFin 22) (LFin 4) NInf.
  Definition E9 := exenv C9 lin.
  Definition C3 := Cfg Minimization 2 [N' (-3); N' (-3)] [N' 3; N' 3] (LFin 30) (LFin 6) NInf.
  Definition E3 := exenv C3 sq.
  Definition pi3 : num := q 3 1.
  Definition p1 := SHPar SHADE 5 (q 1 1) (q 1 4) f0 2 40.
  Definition p2 := SHPar LSHADE 6 (q 1 1) (q 1 4) f0 2 40.
  Definition p3 := SHPar ILSHADE 6 (q 1 2) (q 3 4) (q 1 4) 3 40.
  Lemma C9_ok : cfg_ok C9.
  Proof. split; [reflexivity|]. split; [reflexivity|]. repeat constructor. Qed.
  Lemma C3_ok : cfg_ok C3.
  Proof. split; [reflexivity|]. split; [reflexivity|]. repeat constructor. Qed.
  Example hyps : cfg_ok C9 /\ no_nan (e_prob E9) /\ repair_ok E9 /\ 0 < c_dim C9 /\ Forall (fun p => 4 <= sh_n p /\ 0 < sh_h p) [p1; p2; p3].
  Proof. split; [exact C9_ok|]. split; [apply lin_no_nan|]. split; [exact (clip_ok C9 lin fl8 in7 C9_ok)|]. split; [cbn; lia|]. repeat constructor; cbn; lia. Qed.
  Example hyps3 : cfg_ok C3 /\ no_nan (e_prob E3) /\ repair_ok E3 /\ 0 < c_dim C3.
  Proof. split; [exact C3_ok|]. split; [apply sq_no_nan|]. split; [exact (clip_ok C3 sq fl8 in7 C3_ok)|]. cbn; lia. Qed.
  (** the limits of C89_shade_64 and C92_final_64 *)
  Example hyps64 : arith64 t64 /\ evals_64 (c_max_evals C3) /\ Forall (fun p => (Z.of_nat (sh_n p) <= 2 ^ 40)%Z /\ unit64 (sh_pb p) /\ rate64 (sh_rate p)) [p1; p2; p3] /\ unit64 (sh_end p3) /\ fleb (sh_end p3) (sh_pb p3) = true /\
    bounded64 C3.
  Proof.
    split; [repeat split|]. split; [exists 30%Z; split; [reflexivity|lia]|]. split; [repeat (constructor; [split; [vm_compute; discriminate|]; vm_compute; repeat split|]); constructor|].
    split; [vm_compute; repeat split|]. split; [vm_compute; reflexivity|]. split; repeat constructor.
  Qed.
  Example shade_trace : trace E9 (shade fxx pi3 C9 p1) 9 =
    (Ret ([26305; 356], 27018), [[8192; 40960]; [24576; 40960]; [57344; 57344]; [40960; 24576]; [40960; 8192];
    [31744; 45055]; [26623; 31744]; [40960; 12288]; [24576; 32358]; [57344; 17407]; [32358; 20879]; [61254;
    3028]; [34109; 11147]; [26623; 15872]; [37049; 26667]; [36744; 5573]; [50493; 8192]; [25320; 15872];
    [38537; 21193]; [37049; 7561]; [46941; 4552]; [26305; 356]])%Z.
  Proof. vm_compute. reflexivity. Qed.
  Example ilshade_trace : trace E9 (shade fxx pi3 C9 p3) 9 =
    (Ret ([18022; 10649], 39321), [[8192; 40960]; [24576; 40960]; [57344; 57344]; [40960; 24576]; [40960;
    8192]; [57344; 8192]; [40960; 4096]; [18022; 21299]; [25395; 32358]; [48947; 40550]; [63897; 14745];
    [57344; 57344]; [50549; 3843]; [18022; 24954]; [60047; 16179]; [30203; 29954]; [50995; 7372]; [18936;
    14036]; [18022; 10649]; [30982; 29107]; [21784; 21141]; [9011; 16994]])%Z.
  Proof. vm_compute. reflexivity. Qed.
  (** the states in between: members with their parameters, memories, position, archive with its size, pbest_factor *)
  Definition sv := map scl.
  Definition sj (e : jind) := (sv (fst (fst e)), scl (snd (fst e)), (scl (fst (snd e)), scl (snd (snd e)))).
  Definition sst (st : sh_st) := (sv (st_cr st), sv (st_f st), Z.of_nat (st_k st), map sv (st_arc st), Z.of_nat (st_cnt st), scl (st_pb st)).
  Definition ss E F C p k := match state_after E (shade F pi3 C p) k with Some (s, w) => (Z.of_nat (t_evals (w_ts w)), map sj (r_pop s), sst (r_par s)) | None => (0%Z, [], sst (SHSt [] [] 0 [] 0 f0)) end.
  Example shade_state : ss E3 t64 C3 p1 2 =
    (15, [([16998; 35566], 23710, (30310, 35225)); ([32153; 25804], 25935, (35225, 35225)); ([8192; 40960],
    26624, (32768, 32768)); ([40960; 13788], 28500, (35225, 35225)); ([15689; 48016], 38935, (37311, 42937))],
    ([37203; 41406], [29938; 36835], 0, [[40960; 8192]; [24576; 40960]; [57344; 57344]; [25600; 57344];
    [40960; 24576]], 5, 16384))%Z.
  Proof. vm_compute. reflexivity. Qed.
  Example lshade_state1 : ss E3 t64 C3 p2 1 =
    (12, [([(-615); 14540], 3232, (35225, 35225)); ([40960; 8192], 26624, (32768, 32768)); ([24576; 33382],
    26220, (30310, 36864)); ([40960; 24576], 34816, (32768, 32768)); ([57344; 8192], 51200, (32768, 32768))],
    ([35554; 32768], [33084; 32768], 1, [[8192; 40960]; [24576; 40960]; [57344; 57344]; [0; 0]; [0; 0]; [0;
    0]], 3, 16384))%Z.
  Proof. vm_compute. reflexivity. Qed.
  Example ilshade_state2 : ss E3 t64 C3 p3 2 =
    (17, [([(-615); 14540], 3232, (35225, 54886)); ([40960; 7623], 26486, (30310, 54886)); ([(-1106); 38461],
    22590, (52428, 59801)); ([40960; 24576], 34816, (32768, 52428)); ([3845; 6210], 814, (35225, 54886))],
    ([53702; 54100; 52428], [33144; 35978; 32768], 2, [[8192; 40960]; [57344; 8192]; [57344; 57344]], 2,
    36044))%Z.
  Proof. vm_compute. reflexivity. Qed.
  Example ilshade_fx2 : ss E9 fxx C9 p3 2 =
    (17, [([40960; 4096], 49152, (36863, 54886)); ([18022; 21299], 60620, (52428, 64716)); ([30203; 29954],
    90112, (45292, 58362)); ([50995; 7372], 65740, (36863, 54886))], ([57543; 53657; 52428], [41196; 34815;
    32768], 2, [[40960; 8192]; [63897; 14745]; [24576; 40960]], 2, 23831))%Z.
  Proof. vm_compute. reflexivity. Qed.
End ExShade.

(** ** Refuted parts *)
Lemma raises_no : forall E A n e, own_exn E A n = Some e -> e <> EFuel -> ~ best_run E A.
Proof. intros E A n e H He. apply (run_raises (fun _ => False) _ _ _ _ H); auto. Qed.
(** a population of two has no second pair of parents *)
Theorem C89_small_refuted : exists E p, let C := e_cfg E in
  cfg_ok C /\ 0 < c_dim C /\ no_nan (e_prob E) /\ repair_ok E /\ sh_n p = 2 /\ 0 < sh_h p /\ unit64 (sh_pb p) /\ rate64 (sh_rate p) /\
  own_exn E (shade ExShade.t64 ExShade.pi3 C p) 9 = Some EValue /\ ~ best_run E (shade ExShade.t64 ExShade.pi3 C p).
Proof.
  exists ExShade.E3, (SHPar SHADE 2 (q 1 1) (q 1 4) f0 2 40). cbv zeta. destruct ExShade.hyps3 as (H1 & H2 & H3 & H4). split; [exact H1|]. split; [exact H4|]. split; [exact H2|]. split; [exact H3|].
  split; [reflexivity|]. split; [cbn; lia|]. split; [vm_compute; repeat split|]. split; [vm_compute; repeat split|].
  assert (Q : own_exn ExShade.E3 (shade ExShade.t64 ExShade.pi3 ExShade.C3 (SHPar SHADE 2 (q 1 1) (q 1 4) f0 2 40)) 9 = Some EValue) by (vm_compute; reflexivity).
  split; [exact Q|]. eapply raises_no; [exact Q|discriminate].
Qed.
(** pbest_factor 2: the index of the better individual may not exist *)
Theorem C89_pbest_refuted : exists E p, let C := e_cfg E in
  cfg_ok C /\ 0 < c_dim C /\ no_nan (e_prob E) /\ repair_ok E /\ sh_n p = 5 /\ 0 < sh_h p /\ sh_pb p = q 2 1 /\ rate64 (sh_rate p) /\
  own_exn E (shade ExShade.t64 ExShade.pi3 C p) 9 = Some EIndex /\ ~ best_run E (shade ExShade.t64 ExShade.pi3 C p).
Proof.
  exists ExShade.E3, (SHPar SHADE 5 (q 1 1) (q 2 1) f0 2 40). cbv zeta. destruct ExShade.hyps3 as (H1 & H2 & H3 & H4). split; [exact H1|]. split; [exact H4|]. split; [exact H2|]. split; [exact H3|].
  split; [reflexivity|]. split; [cbn; lia|]. split; [reflexivity|]. split; [vm_compute; repeat split|].
  assert (Q : own_exn ExShade.E3 (shade ExShade.t64 ExShade.pi3 ExShade.C3 (SHPar SHADE 5 (q 1 1) (q 2 1) f0 2 40)) 9 = Some EIndex) by (vm_compute; reflexivity).
  split; [exact Q|]. eapply raises_no; [exact Q|discriminate].
Qed.
(** an infinite improvement makes the memory NaN, from which no positive number can be drawn: RecursionError however deep the
    recursion may go (here 60 calls; see [cauchy_nan]) *)
Definition inf_val (x : vec) : num := match x with Fin z :: _ => if fleb (q 1 2) (Fin z) then PInf else Fin z | _ => PInf end.
Definition inf_out : problem := fun _ x => Ret (inf_val x).
Lemma inf_out_no_nan : no_nan inf_out.
Proof. intros h x v H. assert (v = inf_val x) as -> by (injection H; auto). unfold inf_val. destruct x as [|[| |z|] x]; try discriminate. destruct (fleb (q 1 2) (Fin z)); discriminate. Qed.
Lemma cauchy_nan : forall F pi, fadd F = fadd b64ops -> forall d E w, exists w', exec E (cauchy F pi d NaN (flit F 1 10)) w = (Raise ERecursion, w').
Proof.
  intros F pi HF d. induction d as [|d IH]; intros E w; cbn [cauchy]; [exists w; reflexivity|]. cbn [random bind exec]. rewrite HF. cbn [fadd b64ops].
  match goal with |- context [fltb f0 ?x] => change x with NaN end. cbn [fltb f0]. apply IH.
Qed.
Theorem C89_infinite_refuted : exists E p, let C := e_cfg E in
  cfg_ok C /\ 0 < c_dim C /\ no_nan (e_prob E) /\ repair_ok E /\ sh_n p = 5 /\ 0 < sh_h p /\ unit64 (sh_pb p) /\ rate64 (sh_rate p) /\ sh_depth p = 60 /\
  own_exn E (shade ExShade.t64 ExShade.pi3 C p) 9 = Some ERecursion /\ ~ best_run E (shade ExShade.t64 ExShade.pi3 C p).
Proof.
  exists (exenv ExShade.C3 inf_out), (SHPar SHADE 5 (q 1 1) (q 1 4) f0 1 60). cbv zeta. destruct ExShade.hyps3 as (H1 & _ & _ & H4). split; [exact H1|]. split; [exact H4|].
  split; [exact inf_out_no_nan|].
  split; [exact (clip_ok ExShade.C3 _ fl8 in7 H1)|]. split; [reflexivity|]. split; [cbn; lia|]. split; [vm_compute; repeat split|]. split; [vm_compute; repeat split|]. split; [reflexivity|].
  assert (Q : own_exn (exenv ExShade.C3 inf_out) (shade ExShade.t64 ExShade.pi3 ExShade.C3 (SHPar SHADE 5 (q 1 1) (q 1 4) f0 1 60)) 9 = Some ERecursion) by (vm_compute; reflexivity).
  split; [exact Q|]. eapply raises_no; [exact Q|discriminate].
Qed.
(** bounds whose sum overflows: the middle between the bound and a parent on the bound is infinite *)
Definition big64 : num := Fin (2 ^ 2098 - 2 ^ 2045).
Definition CO := Cfg Minimization 1 [fneg big64] [big64] (LFin 40) LInf NInf.
Theorem C90_overflow_refuted : exists E xs x y wd wd', let C := e_cfg E in cfg_ok C /\ Forall is64 (c_lower C ++ c_upper C) /\ Forall (inside C) xs /\ nth_error xs 0 = Some x /\
  Forall (fun x => Forall is64 x) xs /\ exec E (cross_pbest b64ops C xs 0 f1 f1 2 [] 0) wd = (Ret y, wd') /\ ~ inside C y.
Proof.
  exists (exenv CO sq), [[fneg big64]; [fneg big64]; [f0]; [big64]], [fneg big64], [NInf], (World (task_init CO) [] 0), (World (task_init CO) [] 5). cbv zeta.
  split; [split; [reflexivity|]; split; [reflexivity|]; constructor; [vm_compute; reflexivity|constructor]|]. split; [repeat constructor|].
  split; [repeat (constructor; [repeat constructor; right; vm_compute; split; reflexivity|]); constructor|]. split; [reflexivity|]. split; [repeat constructor|].
  split; [vm_compute; reflexivity|]. intros H. inversion H as [|? ? ? ? [Q|[Q _]] _]; vm_compute in Q; discriminate.
Qed.
(** iL-SHADE averages the terminal value away: an entry below 0 becomes positive again *)
Definition C5 := Cfg Minimization 2 [N' (-3); N' (-3)] [N' 3; N' 3] (LFin 40) LInf NInf.
Definition E5 := Env C5 sq (clip C5) (fun p => if (170 <=? p) && (p <? 190) then q (-9) 1 else fl8 p) in7.
Definition p5 := SHPar ILSHADE 4 (q 1 1) (q 1 2) (q 1 4) 2 40.
Definition entry0 (st : sh_st) : Z := match st_cr st with Fin z :: _ => z | _ => 0%Z end.
Lemma entry0_spec : forall st, entry0 st <> 0%Z -> nth_error (st_cr st) 0 = Some (Fin (entry0 st)).
Proof. intros [cr f k arc cnt pb] H. unfold entry0 in *. cbn [st_cr] in *. destruct cr as [|[| |z|] t]; try (exfalso; apply H; reflexivity). reflexivity. Qed.
Theorem C93_terminal_refuted : exists E p s wd pop' fit' xb' fxb' st' wd' a b, let C := e_cfg E in let A := shade ExShade.t64 ExShade.pi3 C p in
  cfg_ok C /\ 0 < c_dim C /\ no_nan (e_prob E) /\ repair_ok E /\ 4 <= sh_n p /\ sh_kd p = ILSHADE /\ unit64 (sh_pb p) /\ rate64 (sh_rate p) /\ unit64 (sh_end p) /\ fleb (sh_end p) (sh_pb p) = true /\ reached E A s wd /\
  exec E (a_iter A (r_pop s) (r_fit s) (r_xb s) (r_fxb s) (r_par s)) wd = (Ret (pop', fit', xb', fxb', st'), wd') /\
  nth_error (st_cr (r_par s : sh_st)) 0 = Some (Fin a) /\ (a < 0)%Z /\ nth_error (st_cr (st' : sh_st)) 0 = Some (Fin b) /\ (0 < b)%Z.
Proof.
  assert (C5_ok : cfg_ok C5) by (split; [reflexivity|]; split; [reflexivity|]; repeat constructor).
  pose (A := shade ExShade.t64 ExShade.pi3 C5 p5).
  destruct (state_check E5 A 7 (fun s wd => match exec E5 (a_iter A (r_pop s) (r_fit s) (r_xb s) (r_fxb s) (r_par s)) wd with
    | (Ret (_, _, _, _, st'), _) => (entry0 (r_par s) <? 0)%Z && (0 <? entry0 st')%Z | _ => false end)) as (s & wd & R & Q); [vm_compute; reflexivity|].
  destruct (exec E5 _ wd) as [[[[[[pop' fit'] xb'] fxb'] st']|e] wd'] eqn:Ex; [|discriminate]. apply andb_true_iff in Q. destruct Q as [Q1 Q2]. apply Z.ltb_lt in Q1. apply Z.ltb_lt in Q2.
  exists E5, p5, s, wd, pop', fit', xb', fxb', st', wd', (entry0 (r_par s)), (entry0 st'). cbv zeta. split; [exact C5_ok|]. split; [cbn; lia|]. split; [apply sq_no_nan|]. split; [exact (clip_ok _ _ _ _ C5_ok)|].
  split; [cbn; lia|]. split; [reflexivity|]. split; [vm_compute; repeat split|]. split; [vm_compute; repeat split|]. split; [vm_compute; repeat split|]. split; [vm_compute; reflexivity|]. split; [exact R|]. split; [exact Ex|].
  split; [apply entry0_spec; lia|]. split; [exact Q1|]. split; [apply entry0_spec; lia|exact Q2].
Qed.

Print Assumptions C89_shade.
Print Assumptions C89_shade_64.
Print Assumptions C90_trial.
Print Assumptions C90_inside_64.
Print Assumptions C91_step.
Print Assumptions C92_worst.
Print Assumptions C92_final_64.
Print Assumptions C93_drawn_64.
Print Assumptions C93_params_64.
Print Assumptions C93_early_64.
Print Assumptions C93_terminal.
Print Assumptions C89_small_refuted.
Print Assumptions C89_pbest_refuted.
Print Assumptions C89_infinite_refuted.
Print Assumptions C90_overflow_refuted.
Print Assumptions C93_terminal_refuted.
