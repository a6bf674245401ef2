(** Runs that never end. *)
From Coq Require Import ZArith Lia Bool List.
From Verif Require Import Num Task TaskProofs Prog GetBest Run RunProofs RunSpec AlgoLib Fops Indiv Reach ExLib ExLib2.
Import ListNotations.

Definition no_callback : callback := fun _ => None.
(** the run never returns, however long one waits *)
Definition never_ends (E : env) (A : algo) : Prop :=
  forall n, fst (fst (run_body E A no_callback n (World (task_init (e_cfg E)) [] 0))) = Raise EFuel.

Section Endless.
Variables (E : env) (A : algo) (J : rstate A -> world -> Prop).
Hypothesis HJ : forall s w, J s w -> stopping_condition (e_cfg E) (w_ts w) = false /\
  exists pop fit xb fxb par w1, exec E (a_iter A (r_pop s) (r_fit s) (r_xb s) (r_fxb s) (r_par s)) w = (Ret (pop, fit, xb, fxb, par), w1) /\
    J (RState pop fit xb fxb par) (World (next_iter (w_ts w1)) (w_h w1) (w_pos w1)).
Lemma endless_loop : forall n s w ev, J s w -> fst (fst (loop E A no_callback n s w ev)) = Raise EFuel.
Proof.
  induction n as [|n IH]; intros s w ev H; destruct (HJ s w H) as (St & pop & fit & xb & fxb & par & w1 & Ex & H1); cbn [loop]; rewrite St; [reflexivity|].
  cbn [no_callback]. rewrite Ex. cbn [no_callback]. apply IH. exact H1.
Qed.
(** the first k iterations are not stopped *)
Fixpoint going (k : nat) : bool :=
  match k with
  | O => true
  | S k' => going k' && match state_after E A k' with Some (s, w) => negb (stopping_condition (e_cfg E) (w_ts w)) | None => false end
  end.
Lemma going_loop : forall k s w, going k = true -> state_after E A k = Some (s, w) ->
  (forall n ev, fst (fst (loop E A no_callback n s w ev)) = Raise EFuel) ->
  forall s0 w0, state_after E A 0 = Some (s0, w0) -> forall n ev, fst (fst (loop E A no_callback n s0 w0 ev)) = Raise EFuel.
Proof.
  induction k as [|k IH]; intros s w G S0 H s0 w0 S1 n ev; [rewrite S1 in S0; injection S0 as -> ->; auto|].
  cbn [going] in G. apply andb_true_iff in G. destruct G as [G1 G2].
  assert (S2 := S0). cbn [state_after] in S2.
  destruct (state_after E A k) as [[s2 w2]|] eqn:Sk; [|discriminate]. apply negb_true_iff in G2.
  destruct (exec E (a_iter A _ _ _ _ _) w2) as [[[[[[pop fit] xb] fxb] par]|e] w1] eqn:Ex; [|discriminate]. injection S2 as <- <-.
  refine (IH s2 w2 G1 eq_refl _ s0 w0 S1 n ev). intros m ev'. destruct m as [|m]; cbn [loop]; rewrite G2; [reflexivity|]. cbn [no_callback]. rewrite Ex. cbn [no_callback]. apply H.
Qed.
Theorem endless : forall k, going k = true -> match state_after E A k with Some (s, w) => J s w | None => False end -> never_ends E A.
Proof.
  intros k G H n. destruct (state_after E A k) as [[s w]|] eqn:Sk; [|contradiction].
  unfold run_body. cbn [no_callback].
  assert (S0 : exists s0 w0, state_after E A 0 = Some (s0, w0)).
  { clear - Sk. revert s w Sk. induction k; intros s w Sk; [eauto|]. cbn [state_after] in Sk. destruct (state_after E A k) as [[s1 w1]|] eqn:S1; [eauto|].
    discriminate. }
  destruct S0 as (s0 & w0 & S0). assert (L := going_loop k s w G Sk (fun n ev => endless_loop n s w ev H) s0 w0 S0).
  cbn [state_after] in S0. destruct (exec E (a_init A) _) as [[[[pop fit] par]|e] w1]; [|discriminate].
  destruct (get_best (a_coords A pop) fit None PInf) as [[xb fxb]|e]; [|discriminate]. injection S0 as <- <-.
  specialize (L n [BeforeRun]). destruct (loop E A no_callback n _ w1 _) as [[[[y f]|e] w2] ev2]; [discriminate|]. exact L.
Qed.
End Endless.

(** a program run with all random numbers zero; None if it evaluates, repairs or looks at the task *)
Fixpoint zero {A} (p : prog A) : option A :=
  match p with
  | Done a => Some a
  | RndU lo hi k => zero (k (draw_u lo hi f0))
  | RndF k => zero (k f0)
  | RndN n k => zero (k 0)
  | _ => None
  end.
Lemma zero_exec : forall E A (p : prog A) a k w, (forall i, k <= i -> e_flt E i = f0) -> (forall i, e_int E i = 0) -> k <= w_pos w -> zero p = Some a ->
  exists n, k <= n /\ exec E p w = (Ret a, World (w_ts w) (w_h w) n).
Proof.
  intros E A p a k w Hf Hi Hk. revert w Hk. induction p; intros w Hk Hz; cbn [zero] in Hz; try discriminate.
  - injection Hz as ->. exists (w_pos w). split; [lia|]. destruct w; reflexivity.
  - cbn [exec]. rewrite Hf by lia. destruct (H _ (World (w_ts w) (w_h w) (S (w_pos w))) ltac:(cbn; lia) Hz) as (n & Hn & Ex). exists n. split; [lia|]. exact Ex.
  - cbn [exec]. rewrite Hf by lia. destruct (H _ (World (w_ts w) (w_h w) (S (w_pos w))) ltac:(cbn; lia) Hz) as (n & Hn & Ex). exists n. split; [lia|]. exact Ex.
  - cbn [exec]. rewrite Hi, Nat.mod_0_l by lia. destruct (H _ (World (w_ts w) (w_h w) (S (w_pos w))) ltac:(cbn; lia) Hz) as (n' & Hn & Ex). exists n'. split; [lia|]. exact Ex.
Qed.

(** ** Programs that always return and never evaluate *)
Fixpoint quiet {A} (p : prog A) (Q : A -> Prop) : Prop :=
  match p with
  | Done a => Q a
  | Fail _ | Eval _ _ => False
  | Repair x k => forall y, quiet (k y) Q
  | RndU lo hi k => forall r, quiet (k r) Q
  | RndF k => forall r, quiet (k r) Q
  | RndN n k => forall i, i <= n -> quiet (k i) Q
  | View k => forall v, quiet (k v) Q
  end.
Lemma quiet_exec : forall E A (p : prog A) Q w, quiet p Q -> exists a n, exec E p w = (Ret a, World (w_ts w) (w_h w) n) /\ Q a.
Proof.
  intros E A p Q. induction p as [a|e|x k IH|x k IH|lo hi k IH|k IH|n k IH|k IH]; intros w H; cbn [quiet] in H; try contradiction; cbn [exec].
  - exists a, (w_pos w). split; auto. destruct w; auto.
  - apply (IH _ (World (w_ts w) (w_h w) (S (w_pos w)))). apply H.
  - apply (IH _ (World (w_ts w) (w_h w) (S (w_pos w)))). apply H.
  - apply (IH _ (World (w_ts w) (w_h w) (S (w_pos w)))). apply H.
  - apply (IH _ (World (w_ts w) (w_h w) (S (w_pos w)))). apply H. assert (M := Nat.mod_upper_bound (e_int E (w_pos w)) (S n)). lia.
  - apply IH. apply H.
Qed.
Lemma quiet_bind : forall A B (p : prog A) (f : A -> prog B) Q, quiet p (fun a => quiet (f a) Q) -> quiet (bind p f) Q.
Proof. intros A B p f Q. induction p; cbn [bind quiet]; auto. Qed.
Lemma quiet_conseq : forall A (p : prog A) (P Q : A -> Prop), quiet p P -> (forall a, P a -> Q a) -> quiet p Q.
Proof. intros A p P Q. induction p; cbn [quiet]; auto. Qed.
Lemma quiet_range : forall S n (f : S -> nat -> prog S) (I : S -> Prop) s, I s -> (forall s i, i < n -> I s -> quiet (f s i) I) -> quiet (for_range n f s) I.
Proof.
  intros S n f I s Hs Hf. unfold for_range. assert (G : forall l s, (forall i, In i l -> i < n) -> I s -> quiet (foldM f l s) I).
  { induction l as [|i l IH]; intros s' Hl H; cbn [foldM]; [exact H|]. apply quiet_bind. eapply quiet_conseq; [apply Hf; [apply Hl; left; auto|auto]|]. intros s1 H1. apply IH; auto. intros j Hj. apply Hl. right. auto. }
  apply G; auto. intros i Hi. apply in_seq in Hi. lia.
Qed.
Lemma quiet_nthP : forall A (l : list A) i (Q : A -> Prop), i < length l -> (forall a, nth_error l i = Some a -> Q a) -> quiet (nthP l i) Q.
Proof. intros A l i Q H1 H2. unfold nthP. destruct (nth_error l i) eqn:E; [apply H2; auto|]. apply nth_error_None in E. lia. Qed.
Lemma quiet_setP : forall A (l : list A) i a (Q : list A -> Prop), i < length l -> Q (upd l i a) -> quiet (setP l i a) Q.
Proof. intros A l i a Q H1 H2. unfold setP. apply Nat.ltb_lt in H1. rewrite H1. exact H2. Qed.
(** an algorithm whose iterations are quiet runs for ever if only the number of evaluations is limited *)
Theorem quiet_endless : forall E A (J : rstate A -> Prop) s w, c_max_iters (e_cfg E) = LInf ->
  (forall s, J s -> quiet (a_iter A (r_pop s) (r_fit s) (r_xb s) (r_fxb s) (r_par s)) (fun r => let '(pop, fit, xb, fxb, par) := r in J (RState pop fit xb fxb par))) ->
  state_after E A 0 = Some (s, w) -> J s -> stopping_condition (e_cfg E) (w_ts w) = false -> never_ends E A.
Proof.
  intros E A J s w Hi HJ S0 Hs Hw. apply (endless E A (fun s w => J s /\ stopping_condition (e_cfg E) (w_ts w) = false)) with (k := 0); [|reflexivity|rewrite S0; auto].
  intros s1 w1 [H1 H2]. split; auto. destruct (quiet_exec E _ _ _ w1 (HJ s1 H1)) as ([[[[pop fit] xb] fxb] par] & n & Ex & H3).
  exists pop, fit, xb, fxb, par. eexists. split; [exact Ex|]. split; [exact H3|]. cbn [w_ts]. rewrite <- H2. unfold stopping_condition. rewrite Hi. reflexivity.
Qed.
