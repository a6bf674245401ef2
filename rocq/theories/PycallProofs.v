(** Calls depend on the values of the keyword arguments only. *)
From Coq Require Import String List Bool Arith.
From Verif Require Import Task Pycall.
Import ListNotations.
Local Open Scope string_scope.

Section Ext.
Variable V : Type.
Variable const : string -> V.
Variable op : string -> list V -> V.
Variable T : list pyclass.
Definition same (kw kw' : kwargs V) : Prop := forall k, kw k = kw' k.
Definition same_res {A} (r r' : outcome (A * kwargs V)) : Prop :=
  match r, r' with Ret (a, kw), Ret (a', kw') => a = a' /\ same kw kw' | Raise e, Raise e' => e = e' | _, _ => False end.
Lemma pop_same : forall kw kw' k, same kw kw' -> same (pop V kw k) (pop V kw' k).
Proof. intros kw kw' k H k'. unfold pop. destruct (String.eqb k' k); auto. Qed.
Lemma eval_same : forall loc o e kw kw', same kw kw' -> same_res (eval V const op loc o e kw) (eval V const op loc o e kw').
Proof.
  intros loc o. fix IH 1. intros [x|s|a|k d|f es] kw kw' H; cbn [eval].
  - destruct (get V loc x); cbn; auto.
  - cbn; auto.
  - destruct (get V o a); cbn; auto.
  - assert (G := IH d kw kw' H). destruct (eval V const op loc o d kw) as [[v kw1]|e1], (eval V const op loc o d kw') as [[v' kw1']|e1']; cbn in *; try contradiction; auto.
    destruct G as [-> G]. rewrite (G k). split; auto. apply pop_same; auto.
  - assert (G : same_res
      ((fix go es kw := match es with [] => Ret ([], kw) | e :: es' => match eval V const op loc o e kw with Ret (v, kw1) => match go es' kw1 with Ret (vs, kw2) => Ret (v :: vs, kw2) | Raise x => Raise x end | Raise x => Raise x end end) es kw)
      ((fix go es kw := match es with [] => Ret ([], kw) | e :: es' => match eval V const op loc o e kw with Ret (v, kw1) => match go es' kw1 with Ret (vs, kw2) => Ret (v :: vs, kw2) | Raise x => Raise x end | Raise x => Raise x end end) es kw')).
    { revert kw kw' H. induction es as [|e es IHes]; intros kw kw' H; [cbn; auto|].
      assert (G := IH e kw kw' H). destruct (eval V const op loc o e kw) as [[v kw1]|e1], (eval V const op loc o e kw') as [[v' kw1']|e1']; cbn in G; try contradiction; [|cbn; auto].
      destruct G as [-> G]. specialize (IHes _ _ G).
      destruct ((fix go es kw := match es with [] => Ret ([], kw) | e :: es' => match eval V const op loc o e kw with Ret (v, kw1) => match go es' kw1 with Ret (vs, kw2) => Ret (v :: vs, kw2) | Raise x => Raise x end | Raise x => Raise x end end) es kw1) as [[vs k2]|],
        ((fix go es kw := match es with [] => Ret ([], kw) | e :: es' => match eval V const op loc o e kw with Ret (v, kw1) => match go es' kw1 with Ret (vs, kw2) => Ret (v :: vs, kw2) | Raise x => Raise x end | Raise x => Raise x end end) es kw1') as [[vs' k2']|]; cbn in *; try contradiction; auto.
      destruct IHes as [-> IHes]. auto. }
    match goal with |- same_res (match ?a with _ => _ end) (match ?b with _ => _ end) => destruct a as [[vs k1]|], b as [[vs' k1']|] end; cbn in *; try contradiction; auto. destruct G as [-> G]; auto.
Qed.
Lemma eval_all_same : forall loc o es kw kw', same kw kw' -> same_res (eval_all V const op loc o es kw) (eval_all V const op loc o es kw').
Proof.
  intros loc o. induction es as [|e es IH]; intros kw kw' H; cbn [eval_all]; [cbn; auto|]. assert (G := eval_same loc o e kw kw' H).
  destruct (eval V const op loc o e kw) as [[v kw1]|e1], (eval V const op loc o e kw') as [[v' kw1']|e1']; cbn in G; try contradiction; [|cbn; auto]. destruct G as [-> G]. specialize (IH _ _ G).
  destruct (eval_all V const op loc o es kw1) as [[vs k2]|], (eval_all V const op loc o es kw1') as [[vs' k2']|]; cbn in *; try contradiction; auto. destruct IH as [-> IH]. auto.
Qed.
Lemma bind_params_same : forall ps pos kw kw', same kw kw' -> bind_params V const ps pos kw = bind_params V const ps pos kw'.
Proof. induction ps as [|[p d] ps IH]; intros [|v pos] kw kw' H; cbn [bind_params]; auto; rewrite (H p), (IH _ _ _ H); reflexivity. Qed.
Lemma bind_call_same : forall m pos kw kw', same kw kw' -> same_res (bind_call V const m pos kw) (bind_call V const m pos kw').
Proof.
  intros m pos kw kw' H. unfold bind_call. rewrite (H "self"), (bind_params_same _ _ _ _ H). destruct (kw' "self"); [cbn; auto|].
  assert (G : same (fun k => if mem k (map fst (m_params m)) then None else kw k) (fun k => if mem k (map fst (m_params m)) then None else kw' k)) by (intros k; cbv beta; rewrite (H k); reflexivity).
  destruct (bind_params V const (m_params m) pos kw') as [[l [|v r]]|e]; [cbn; auto| |cbn; auto]. destruct (m_var m); cbn; auto.
Qed.
Lemma clash_same : forall ks kw kw', same kw kw' -> clash V ks kw = clash V ks kw'.
Proof. induction ks as [|k ks IH]; intros kw kw' H; cbn [clash]; auto. rewrite (H k), (IH _ _ H). reflexivity. Qed.
Lemma with_kw_same : forall kvs kw kw', same kw kw' -> same (with_kw V kvs kw) (with_kw V kvs kw').
Proof. intros kvs kw kw' H k. unfold with_kw. rewrite (H k). reflexivity. Qed.
Lemma call_same : forall n c t m pos kw kw' o, same kw kw' -> call V const op T n c t m pos kw o = call V const op T n c t m pos kw' o.
Proof.
  induction n as [|n IH]; intros c t m pos kw kw' o H; cbn [call]; auto. destruct (first_with T (sel_method m) (places T c t)) as [me|]; auto.
  assert (G := bind_call_same me pos kw kw' H). destruct (bind_call V const me pos kw) as [[[loc args] k0]|e], (bind_call V const me pos kw') as [[[loc' args'] k0']|e']; cbn in G; try contradiction; [|congruence].
  destruct G as [[= -> ->] G]. clear H kw kw'. rename k0 into kw, k0' into kw'. revert loc' kw kw' o G. generalize (m_body me). induction l as [|s ss IHs]; intros loc kw kw' o G; auto. destruct s as [k|x e|a e|t' m' ps star kvs dstar].
  - apply IHs. apply pop_same; auto.
  - assert (Q := eval_same loc o e kw kw' G). destruct (eval V const op loc o e kw) as [[v k1]|], (eval V const op loc o e kw') as [[v' k1']|]; cbn in Q; try contradiction; [|congruence]. destruct Q as [-> Q]. apply IHs; auto.
  - assert (Q := eval_same loc o e kw kw' G). destruct (eval V const op loc o e kw) as [[v k1]|], (eval V const op loc o e kw') as [[v' k1']|]; cbn in Q; try contradiction; [|congruence]. destruct Q as [-> Q]. apply IHs; auto.
  - assert (Q := eval_all_same loc o ps kw kw' G). destruct (eval_all V const op loc o ps kw) as [[vs k1]|], (eval_all V const op loc o ps kw') as [[vs' k1']|]; cbn in Q; try contradiction; [|congruence]. destruct Q as [-> Q].
    assert (Q2 := eval_all_same loc o (map snd kvs) k1 k1' Q). destruct (eval_all V const op loc o (map snd kvs) k1) as [[ws k2]|], (eval_all V const op loc o (map snd kvs) k1') as [[ws' k2']|]; cbn in Q2; try contradiction; [|congruence]. destruct Q2 as [-> Q2].
    rewrite (clash_same _ _ _ Q2). destruct (dstar && clash V (map fst kvs) k2'); auto.
    rewrite (IH c t' m' (app vs' (if star then args' else [])) (with_kw V (combine (map fst kvs) ws') (if dstar then k2 else fun _ => None)) (with_kw V (combine (map fst kvs) ws') (if dstar then k2' else fun _ => None)) o) by (apply with_kw_same; destruct dstar; [exact Q2|intros k; reflexivity]).
    destruct (call V const op T n c t' m' _ _ o) as [o'|e']; auto.
Qed.
End Ext.
