(** Boolean checks on concrete runs, used by the refutations. *)
From Coq Require Import ZArith Lia Bool List.
From Verif Require Import Num Task TaskSpec TaskProofs Prog GetBest Run RunSpec AlgoLib ExLib Reach.
Import ListNotations.

Definition num_eqb (a b : num) : bool :=
  match a, b with NaN, NaN | NInf, NInf | PInf, PInf => true | Fin x, Fin y => Z.eqb x y | _, _ => false end.
Lemma num_eqb_spec : forall a b, num_eqb a b = true <-> a = b.
Proof. intros [| |x|] [| |y|]; simpl; split; intros H; try congruence; auto; [apply Z.eqb_eq in H; congruence|injection H as ->; apply Z.eqb_refl]. Qed.
Fixpoint vec_eqb (x y : vec) : bool :=
  match x, y with [], [] => true | a :: x', b :: y' => num_eqb a b && vec_eqb x' y' | _, _ => false end.
Lemma vec_eqb_spec : forall x y, vec_eqb x y = true <-> x = y.
Proof.
  induction x as [|a x IH]; intros [|b y]; simpl; split; intros H; try congruence; auto.
  - apply andb_true_iff in H. destruct H as [H1 H2]. apply num_eqb_spec in H1. apply IH in H2. congruence.
  - injection H as -> ->. apply andb_true_iff. split; [apply num_eqb_spec; auto|apply IH; auto].
Qed.
Definition entry_is (x : vec) (v : num) (a : vec * outcome num) : bool :=
  match a with (y, Ret u) => vec_eqb x y && num_eqb u v | _ => false end.

(** the returned pair was never evaluated *)
Definition bad_pair (E : env) (A : algo) (n : nat) : bool :=
  match run_body E A (fun _ => None) n (World (task_init (e_cfg E)) [] 0) with
  | (Ret (x, v), w, _) => negb (num_eqb v (worst (c_opt (e_cfg E)))) && negb (existsb (entry_is x v) (w_h w))
  | _ => false
  end.
Lemma run_bad_pair : forall X E A n, bad_pair E A n = true ->
  (exists x v w ev, run_body E A (fun _ => None) n (World (task_init (e_cfg E)) [] 0) = (Ret (x, v), w, ev) /\
     v <> worst (c_opt (e_cfg E)) /\ ~ In (x, Ret v) (w_h w)) /\ ~ best_run_x X E A.
Proof.
  intros X E A n H. unfold bad_pair in H.
  destruct (run_body E A (fun _ => None) n (World (task_init (e_cfg E)) [] 0)) as [[[[x v]|e] w] ev] eqn:Q; [|discriminate].
  apply andb_true_iff in H. destruct H as [H1 H2]. apply negb_true_iff in H1, H2.
  assert (A1 : v <> worst (c_opt (e_cfg E))) by (intros Hv; apply num_eqb_spec in Hv; congruence).
  assert (A2 : ~ In (x, Ret v) (w_h w)).
  { intros Hi. rewrite (proj2 (existsb_exists (entry_is x v) (w_h w))) in H2; [discriminate|]. exists (x, Ret v). split; auto. cbn [entry_is].
    apply andb_true_iff. split; [apply vec_eqb_spec|apply num_eqb_spec]; auto. }
  split; [exists x, v, w, ev; auto|]. intros B. destruct (B _ _ _ _ _ _ Q) as (_ & _ & _ & _ & _ & [B1|B1]); auto.
Qed.

(** something better than the returned value was evaluated *)
Definition lost_best (E : env) (A : algo) (n : nat) : bool :=
  match run_body E A (fun _ => None) n (World (task_init (e_cfg E)) [] 0) with
  | (Ret (x, v), w, _) => existsb (fun a => match a with (_, Ret u) => better (c_opt (e_cfg E)) u v | _ => false end) (w_h w)
  | _ => false
  end.
Lemma run_lost_best : forall X E A n, lost_best E A n = true ->
  (exists x v w ev y u, run_body E A (fun _ => None) n (World (task_init (e_cfg E)) [] 0) = (Ret (x, v), w, ev) /\
     In (y, Ret u) (w_h w) /\ better (c_opt (e_cfg E)) u v = true) /\ ~ best_run_x X E A.
Proof.
  intros X E A n H. unfold lost_best in H.
  destruct (run_body E A (fun _ => None) n (World (task_init (e_cfg E)) [] 0)) as [[[[x v]|e] w] ev] eqn:Q; [|discriminate].
  apply existsb_exists in H. destruct H as ([y [u|e]] & H1 & H2); [|discriminate].
  split; [exists x, v, w, ev, y, u; auto|]. intros B. destruct (B _ _ _ _ _ _ Q) as (_ & _ & _ & _ & (_ & _ & B1) & _).
  rewrite B1 in H2; [discriminate|]. unfold returned. apply in_flat_map. exists (y, Ret u). simpl. auto.
Qed.

(** the state after init and k iterations *)
Fixpoint state_after (E : env) (A : algo) (k : nat) : option (rstate A * world) :=
  match k with
  | O => match exec E (a_init A) (World (task_init (e_cfg E)) [] 0) with
         | (Ret (pop, fit, par), w) => match get_best (a_coords A pop) fit None PInf with
                                       | Ret (xb, fxb) => Some (RState pop fit xb fxb par, w) | Raise _ => None end
         | _ => None end
  | S k' => match state_after E A k' with
            | Some (s, w) => match exec E (a_iter A (r_pop s) (r_fit s) (r_xb s) (r_fxb s) (r_par s)) w with
                             | (Ret (pop, fit, xb, fxb, par), w') =>
                                 Some (RState pop fit xb fxb par, World (next_iter (w_ts w')) (w_h w') (w_pos w'))
                             | _ => None end
            | None => None end
  end.
Lemma state_reached : forall E A k s w, state_after E A k = Some (s, w) -> reached E A s w.
Proof.
  intros E A k. induction k as [|k IH]; intros s w H; cbn [state_after] in H.
  - destruct (exec E (a_init A) _) as [[[[pop fit] par]|e] w0] eqn:Ex; [|discriminate].
    destruct (get_best (a_coords A pop) fit None PInf) as [[xb fxb]|e] eqn:G; [|discriminate]. injection H as <- <-.
    eapply reached_init; eauto.
  - destruct (state_after E A k) as [[s0 w0]|] eqn:S0; [|discriminate].
    destruct (exec E (a_iter A _ _ _ _ _) w0) as [[[[[[pop fit] xb] fxb] par]|e] w1] eqn:Ex; [|discriminate]. injection H as <- <-.
    eapply reached_step; eauto.
Qed.
Lemma state_check : forall E A k (chk : rstate A -> world -> bool),
  match state_after E A k with Some (s, w) => chk s w | None => false end = true ->
  exists s w, reached E A s w /\ chk s w = true.
Proof.
  intros E A k chk H. destruct (state_after E A k) as [[s w]|] eqn:S0; [|discriminate]. exists s, w. split; auto. eapply state_reached; eauto.
Qed.
