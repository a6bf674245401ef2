(** Properties C129-C132: the parameters of the algorithm classes: what the constructors and set_parameters accept, what
    get_parameters reports, and whether set_parameters( **get_parameters()) changes anything. Values are an arbitrary type. *)
From Coq Require Import String List Bool Arith.
From Verif Require Import Task Pycall ParamTable PycallProofs ParamForms ParamRows ParamRounds.
Import ListNotations.
Local Open Scope string_scope.

(** * C129: constructors and get_parameters *)
(** every class of the table is covered *)
Theorem C129_classes : map class constructors = map pc_name table.
Proof. vm_compute. reflexivity. Qed.
Lemma construct_attributes : forall c ref fs V const op kw, In (c, ref, fs) constructors -> given V kw ("self" :: ref) = false ->
  exists o, construct V const op table c kw = Ret o /\ map fst o = attributes c /\ get_parameters V table c o = Ret (reported V const op kw fs)
            /\ construct V const op table c (without V ("self" :: ref) kw) = Ret o.
Proof.
  intros c ref fs V const op kw I G.
  assert (H := proj1 (Forall_forall _ _) constructed _ I V const op kw). cbv beta iota in H.
  unfold construct in *. rewrite (call_same V const op table depth c TSelf "__init__" [] kw _ [] (without_same V _ _ G)).
  destruct (call V const op table depth c TSelf "__init__" [] _ []) as [o|e]; [|discriminate H]. exists o. split; auto.
  simpl in H. destruct (get_parameters V table c o); simpl in H; [|discriminate H]. injection H as H1 H2. subst. auto.
Qed.
Lemma construct_refused : forall c ref fs V const op kw, In (c, ref, fs) constructors -> given V kw ("self" :: ref) = true ->
  construct V const op table c kw = Raise EType.
Proof.
  intros c ref fs V const op kw I G. assert (H := proj1 (Forall_forall _ _) not_constructed _ I V const op kw). cbv beta iota in H.
  unfold construct in *. rewrite (call_same V const op table depth c TSelf "__init__" [] kw _ [] (overs_same V ("self" :: ref) kw)).
  apply H; [rewrite map_length; auto|]. rewrite <- given_map. exact G.
Qed.
(** A constructor called with keyword arguments raises a TypeError if one of them is among those refused by its class, and
    otherwise returns an object whose get_parameters reports exactly the dictionary written down for the class. *)
Theorem C129_construct : forall c ref fs V const op kw, In (c, ref, fs) constructors ->
  if given V kw ("self" :: ref) then construct V const op table c kw = Raise EType
  else exists o, construct V const op table c kw = Ret o /\ get_parameters V table c o = Ret (reported V const op kw fs).
Proof.
  intros c ref fs V const op kw I. destruct (given V kw ("self" :: ref)) eqn:G.
  - exact (construct_refused c ref fs V const op kw I G).
  - destruct (construct_attributes c ref fs V const op kw I G) as (o & H1 & _ & H2 & _). eauto.
Qed.

(** * C130: set_parameters *)
Lemma row_of : forall c, In c (map pc_name table) -> exists ref fs, In (c, ref, fs) constructors.
Proof. intros c. rewrite <- C129_classes. intros I. apply in_map_iff in I. destruct I as (((c' & ref) & fs) & E & I). simpl in E. subst. eauto. Qed.
Lemma mem_In : forall k ks, mem k ks = true -> In k ks.
Proof. intros k ks H. apply existsb_exists in H. destruct H as (k' & I & E). apply String.eqb_eq in E. subst. exact I. Qed.
Definition covered (c : string) : bool := if mem c broken then true else mem c (map class setters).
Lemma all_set : forallb covered (map pc_name table) = true.
Proof. vm_compute. reflexivity. Qed.
Definition known (c : string) : bool := mem c (map pc_name table).
Lemma setters_known : forallb known (map class setters) = true.
Proof. vm_compute. reflexivity. Qed.
Lemma broken_known : forallb known broken = true.
Proof. vm_compute. reflexivity. Qed.
Lemma no_round_trip_known : forallb known no_round_trip = true.
Proof. vm_compute. reflexivity. Qed.
(** every class has a row for set_parameters, except two *)
Theorem C130_classes : forall c, In c (map pc_name table) -> if mem c broken then True else exists ref fs, In (c, ref, fs) setters.
Proof.
  intros c I. assert (H := proj1 (forallb_forall _ _) all_set c I). unfold covered in H. destruct (mem c broken); auto.
  apply mem_In, in_map_iff in H. destruct H as (((c' & ref) & fs) & E & I'). exists ref, fs. rewrite <- E. exact I'.
Qed.
Lemma pairs : forall V ks (o : dict V), map fst o = ks -> exists vs, length vs = length ks /\ o = combine ks vs.
Proof.
  intros V ks o. revert ks. induction o as [|[k v] o IH]; intros ks H; simpl in H; subst ks.
  - exists []. auto.
  - destruct (IH _ eq_refl) as (vs & L & E). exists (v :: vs). simpl. rewrite <- E. auto.
Qed.
Lemma set_attributes : forall c ref fs V const op kw o, In (c, ref, fs) setters -> map fst o = attributes c -> given V kw ("self" :: ref) = false ->
  exists o', set_parameters V const op table c kw o = Ret o' /\ map fst o' = attributes c /\ get_parameters V table c o' = Ret (reported V const op kw fs)
             /\ set_parameters V const op table c (without V ("self" :: ref) kw) o = Ret o'.
Proof.
  intros c ref fs V const op kw o I A G. destruct (pairs V _ o A) as (vs & L & ->).
  assert (H := proj1 (Forall_forall _ _) was_set _ I V const op kw). cbv beta iota in H. specialize (H vs L).
  unfold set_parameters in *. rewrite (call_same V const op table depth c TSelf "set_parameters" [] kw _ _ (without_same V _ _ G)).
  destruct (call V const op table depth c TSelf "set_parameters" [] _ _) as [o'|e]; [|discriminate H]. exists o'. split; auto.
  simpl in H. destruct (get_parameters V table c o'); simpl in H; [|discriminate H]. injection H as H1 H2. subst. auto.
Qed.
Lemma set_refused : forall c ref fs V const op kw o, In (c, ref, fs) setters -> map fst o = attributes c -> given V kw ("self" :: ref) = true ->
  set_parameters V const op table c kw o = Raise EType.
Proof.
  intros c ref fs V const op kw o I A G. destruct (pairs V _ o A) as (vs & L & ->).
  assert (H := proj1 (Forall_forall _ _) was_not_set _ I V const op kw). cbv beta iota in H. specialize (H vs L).
  unfold set_parameters in *. rewrite (call_same V const op table depth c TSelf "set_parameters" [] kw _ _ (overs_same V ("self" :: ref) kw)).
  apply H; [rewrite map_length; auto|]. rewrite <- given_map. exact G.
Qed.
Lemma set_broken : forall c V const op kw o, In c broken -> map fst o = attributes c -> set_parameters V const op table c kw o = Raise EType.
Proof.
  intros c V const op kw o I A. destruct (pairs V _ o A) as (vs & L & ->). unfold set_parameters.
  rewrite (call_same V const op table depth c TSelf "set_parameters" [] kw _ _ (overs_same V ["self"] kw)). simpl map.
  destruct (kw "self") as [v|].
  - exact (proj1 (Forall_forall _ _) never_set_self _ I V const op kw vs v L).
  - exact (proj1 (Forall_forall _ _) never_set _ I V const op kw vs L).
Qed.
Lemma configured_attributes : forall c V const op o, In c (map pc_name table) -> configured V const op c o -> map fst o = attributes c.
Proof.
  intros c V const op o I C. induction C as [kw o H|kw o o' C IH H].
  - destruct (row_of c I) as (ref & fs & R). destruct (given V kw ("self" :: ref)) eqn:G.
    + rewrite (construct_refused c ref fs V const op kw R G) in H. discriminate H.
    + destruct (construct_attributes c ref fs V const op kw R G) as (o1 & H1 & H2 & _). congruence.
  - assert (K := C130_classes c I). destruct (mem c broken) eqn:B.
    + apply mem_In in B.
      rewrite (set_broken c V const op kw o B IH) in H. discriminate H.
    + destruct K as (ref & fs & R). destruct (given V kw ("self" :: ref)) eqn:G.
      * rewrite (set_refused c ref fs V const op kw o R IH G) in H. discriminate H.
      * destruct (set_attributes c ref fs V const op kw o R IH G) as (o1 & H1 & H2 & _). congruence.
Qed.
Lemma setter_class : forall c ref fs, In (c, ref, fs) setters -> In c (map pc_name table).
Proof.
  intros c ref fs I. apply mem_In. apply (proj1 (forallb_forall _ _) setters_known). apply in_map_iff. exists (c, ref, fs). split; [reflexivity|exact I].
Qed.
Lemma constructor_class : forall c ref fs, In (c, ref, fs) constructors -> In c (map pc_name table).
Proof. intros c ref fs I. rewrite <- C129_classes. apply in_map_iff. exists (c, ref, fs). auto. Qed.
Lemma broken_class : forall c, In c broken -> In c (map pc_name table).
Proof. intros c I. apply mem_In. exact (proj1 (forallb_forall _ _) broken_known c I). Qed.
(** set_parameters, called on an object that has been constructed and configured any number of times, raises a TypeError if it
    is given a refused argument; otherwise get_parameters afterwards reports the arguments given and defaults for all others:
    nothing of the earlier configuration is left in it. *)
Theorem C130_set : forall c ref fs V const op kw o, In (c, ref, fs) setters -> configured V const op c o ->
  if given V kw ("self" :: ref) then set_parameters V const op table c kw o = Raise EType
  else exists o', set_parameters V const op table c kw o = Ret o' /\ get_parameters V table c o' = Ret (reported V const op kw fs).
Proof.
  intros c ref fs V const op kw o I C. assert (A := configured_attributes c V const op o (setter_class c ref fs I) C).
  destruct (given V kw ("self" :: ref)) eqn:G.
  - exact (set_refused c ref fs V const op kw o I A G).
  - destruct (set_attributes c ref fs V const op kw o I A G) as (o' & H1 & _ & H2 & _). eauto.
Qed.
(** CoralReefsOptimization and EvolutionStrategyMp1 cannot be configured after construction at all. *)
Theorem C130_raises : forall c V const op kw o, In c broken -> configured V const op c o -> set_parameters V const op table c kw o = Raise EType.
Proof. intros c V const op kw o I C. apply set_broken; auto. apply (configured_attributes c V const op o); auto using broken_class. Qed.
Lemma get_keep : forall V ks ns (vs : list V) n k, map fst n = ns -> length vs = length ns ->
  get V (keep V ks (combine ns vs) n) k = if mem k ks then get V (combine ns vs) k else get V n k.
Proof.
  intros V ks ns vs n k. revert ns vs. induction n as [|[k' v'] n IH]; intros ns vs E L; simpl in E; subst ns.
  - destruct vs; [|discriminate L]. simpl. destruct (mem k ks); auto.
  - destruct vs as [|v vs]; [discriminate L|]. injection L as L. simpl. destruct (String.eqb k' k) eqn:Q.
    + apply String.eqb_eq in Q. subst k'. destruct (mem k ks); auto.
    + apply (IH (map fst n) vs); auto.
Qed.
(** For all classes but 19 with other defaults and the two above, set_parameters leaves the object in the state of one freshly
    constructed with the same arguments, except for the random generator, the callbacks, the stored exception (and the loop
    counters of the bacterial foraging optimization). *)
Theorem C130_fresh : forall c ref fs V const op kw o, In (c, ref, fs) constructors -> plain c = true -> configured V const op c o ->
  given V kw ("self" :: ref) = false ->
  exists o' n, set_parameters V const op table c kw o = Ret o' /\ construct V const op table c kw = Ret n
               /\ forall k, get V o' k = if mem k (kept c) then get V o k else get V n k.
Proof.
  intros c ref fs V const op kw o I P C G. assert (A := configured_attributes c V const op o (constructor_class c ref fs I) C).
  destruct (pairs V _ o A) as (vs & L & ->).
  destruct (construct_attributes c ref fs V const op kw I G) as (n & H1 & H2 & _ & H3).
  assert (F : In (c, ref, fs) (filter (fun r => plain (class r)) constructors)) by (apply filter_In; auto).
  assert (H := proj1 (Forall_forall _ _) set_fresh _ F V const op kw). cbv beta iota in H. specialize (H vs L). rewrite H3 in H. simpl in H.
  exists (keep V (kept c) (combine (attributes c) vs) n), n. split.
  - unfold set_parameters in *. rewrite (call_same V const op table depth c TSelf "set_parameters" [] kw _ _ (without_same V _ _ G)). exact H.
  - split; auto. intros k. apply get_keep; auto.
Qed.

(** * C131: set_parameters( **get_parameters()) *)
Lemma configured_last : forall c V const op o, In c (map pc_name table) -> configured V const op c o ->
  (exists ref fs kw, In (c, ref, fs) constructors /\ given V kw ("self" :: ref) = false /\ construct V const op table c kw = Ret o)
  \/ (exists ref fs kw o1, In (c, ref, fs) setters /\ given V kw ("self" :: ref) = false /\ map fst o1 = attributes c /\ set_parameters V const op table c kw o1 = Ret o).
Proof.
  intros c V const op o I C. destruct C as [kw o H|kw o o' C H].
  - left. destruct (row_of c I) as (ref & fs & R). exists ref, fs, kw. destruct (given V kw ("self" :: ref)) eqn:G; auto.
    rewrite (construct_refused c ref fs V const op kw R G) in H. discriminate H.
  - right. assert (A := configured_attributes c V const op o I C). assert (K := C130_classes c I). destruct (mem c broken) eqn:B.
    + apply mem_In in B.
      rewrite (set_broken c V const op kw o B A) in H. discriminate H.
    + destruct K as (ref & fs & R). exists ref, fs, kw, o. destruct (given V kw ("self" :: ref)) eqn:G; auto.
      rewrite (set_refused c ref fs V const op kw o R A G) in H. discriminate H.
Qed.
Lemma configured_get : forall c V const op o, In c (map pc_name table) -> configured V const op c o -> exists g, get_parameters V table c o = Ret g.
Proof.
  intros c V const op o I C. destruct (configured_last c V const op o I C) as [(ref & fs & kw & R & G & H)|(ref & fs & kw & o1 & R & G & A & H)].
  - destruct (construct_attributes c ref fs V const op kw R G) as (o2 & H1 & _ & H2 & _). rewrite H in H1. injection H1 as <-. eauto.
  - destruct (set_attributes c ref fs V const op kw o1 R A G) as (o2 & H1 & _ & H2 & _). rewrite H in H1. injection H1 as <-. eauto.
Qed.
Lemma no_round_trip_class : forall c, In c no_round_trip -> In c (map pc_name table).
Proof. intros c I. apply mem_In. exact (proj1 (forallb_forall _ _) no_round_trip_known c I). Qed.
(** For 18 classes the dictionary reported by get_parameters is never accepted by set_parameters. *)
Theorem C131_raises : forall c V const op o, In c no_round_trip -> configured V const op c o ->
  exists g, get_parameters V table c o = Ret g /\ set_parameters V const op table c (get V g) o = Raise EType.
Proof.
  intros c V const op o I C. assert (T := no_round_trip_class c I). destruct (configured_get c V const op o T C) as (g & H).
  exists g. split; auto. destruct (pairs V _ o (configured_attributes c V const op o T C)) as (vs & L & ->).
  assert (K := proj1 (Forall_forall _ _) round_raises _ I V const op vs L). unfold round_trip in K. rewrite H in K. exact K.
Qed.
(** For all others it is accepted and changes no attribute, except that the attributes listed in [forgotten], which get_parameters
    leaves out or reports under another name, go back to their defaults. *)
Theorem C131_same : forall c V const op o, In c (map pc_name table) -> mem c no_round_trip = false -> configured V const op c o ->
  exists g, get_parameters V table c o = Ret g /\ set_parameters V const op table c (get V g) o = Ret (forget V const c o).
Proof.
  intros c V const op o I N C. destruct (configured_get c V const op o I C) as (g & Hg). exists g. split; auto.
  enough (K : round_trip V const op c o = Ret (forget V const c o)) by (unfold round_trip in K; rewrite Hg in K; exact K).
  destruct (configured_last c V const op o I C) as [(ref & fs & kw & R & G & H)|(ref & fs & kw & o1 & R & G & A & H)].
  - destruct (construct_attributes c ref fs V const op kw R G) as (o2 & H1 & _ & _ & H2). rewrite H in H1. injection H1 as <-.
    assert (F : In (c, ref, fs) (filter round constructors)) by (apply filter_In; split; [assumption|]; unfold round, class; cbn [fst]; rewrite N; reflexivity).
    assert (K := proj1 (Forall_forall _ _) round_made _ F V const op kw). cbv beta iota in K. rewrite H2 in K. exact K.
  - destruct (set_attributes c ref fs V const op kw o1 R A G) as (o2 & H1 & _ & _ & H2). rewrite H in H1. injection H1 as <-.
    assert (F : In (c, ref, fs) (filter round setters)) by (apply filter_In; split; [assumption|]; unfold round, class; cbn [fst]; rewrite N; reflexivity).
    destruct (pairs V _ o1 A) as (vs & L & ->).
    assert (K := proj1 (Forall_forall _ _) round_again _ F V const op kw). cbv beta iota in K. specialize (K vs L). rewrite H2 in K. exact K.
Qed.
Theorem C131_identity : forall c V const op o, In c (map pc_name table) -> mem c no_round_trip = false -> forgotten c = [] -> configured V const op c o ->
  exists g, get_parameters V table c o = Ret g /\ set_parameters V const op table c (get V g) o = Ret o.
Proof.
  intros c V const op o I N F C. destruct (C131_same c V const op o I N C) as (g & H1 & H2). exists g. split; auto. rewrite H2. f_equal.
  unfold forget. rewrite F. simpl. clear. induction o as [|[k v] o IH]; simpl; f_equal; auto.
Qed.

(** * C132: other keyword arguments are ignored *)
Fixpoint form_names (f : form) : list string := match f with Arg k _ => [k] | Lit _ => [] | Fun _ l => flat_map form_names l end.
Definition names (fs : list (string * form)) : list string := flat_map (fun kf => form_names (snd kf)) fs.
Section Ignored.
Variable V : Type.
Variable const : string -> V.
Variable op : string -> list V -> V.
Definition agree (kw kw' : kwargs V) (ks : list string) : Prop := forall k, In k ks -> kw k = kw' k.
Fixpoint form_depth (f : form) : nat := match f with Fun _ l => S (fold_right (fun f m => Nat.max (form_depth f) m) 0 l) | _ => 0 end.
Lemma den_agree : forall n f kw kw', form_depth f <= n -> agree kw kw' (form_names f) -> den V const op kw f = den V const op kw' f.
Proof.
  induction n as [|n IH]; intros f kw kw' D A; destruct f as [k d|s|f l]; simpl; auto; try (rewrite (A k); simpl; auto; fail).
  - inversion D.
  - f_equal. simpl in D. apply le_S_n in D. simpl in A. revert D A. induction l as [|f' l IHl]; intros D A; simpl; auto. simpl in D. f_equal.
    + apply IH; [apply Nat.le_trans with (2 := D), Nat.le_max_l|]. intros k I. apply A. simpl. apply in_app_iff. auto.
    + apply IHl; [apply Nat.le_trans with (2 := D), Nat.le_max_r|]. intros k I. apply A. simpl. apply in_app_iff. auto.
Qed.
Lemma reported_agree : forall fs kw kw', agree kw kw' (names fs) -> reported V const op kw fs = reported V const op kw' fs.
Proof.
  intros fs kw kw' A. unfold reported. apply map_ext_in. intros [k f] I. simpl. f_equal. apply (den_agree (form_depth f)); auto.
  intros k' I'. apply A. unfold names. apply in_flat_map. exists (k, f). auto.
Qed.
End Ignored.
Section Ignored2.
Variable V : Type.
Definition with_arg (k : string) (v : V) (kw : kwargs V) : kwargs V := fun k' => if String.eqb k' k then Some v else kw k'.
Lemma with_arg_given : forall k v kw ks, ~ In k ks -> given V (with_arg k v kw) ks = given V kw ks.
Proof.
  intros k v kw ks N. induction ks as [|k' ks IH]; auto. unfold given in *. simpl in *. rewrite IH by tauto. unfold with_arg.
  destruct (String.eqb k' k) eqn:E; auto. apply String.eqb_eq in E. subst. tauto.
Qed.
Lemma with_arg_agree : forall k v kw ks, ~ In k ks -> agree V (with_arg k v kw) kw ks.
Proof. intros k v kw ks N k' I. unfold with_arg. destruct (String.eqb k' k) eqn:E; auto. apply String.eqb_eq in E. subst. tauto. Qed.
End Ignored2.
(** A keyword argument that is neither a parameter of the class nor refused is accepted by the constructor without an error and
    has no effect on any parameter. *)
Theorem C132_construct : forall c ref fs V const op kw k v o, In (c, ref, fs) constructors -> ~ In k ("self" :: app ref (names fs)) ->
  construct V const op table c kw = Ret o ->
  exists o', construct V const op table c (with_arg V k v kw) = Ret o' /\ get_parameters V table c o' = get_parameters V table c o.
Proof.
  intros c ref fs V const op kw k v o I N H. simpl in N. rewrite in_app_iff in N.
  assert (K := C129_construct c ref fs V const op (with_arg V k v kw) I). rewrite (with_arg_given V) in K by (simpl; tauto).
  assert (K0 := C129_construct c ref fs V const op kw I). destruct (given V kw ("self" :: ref)); [congruence|].
  destruct K as (o' & K1 & K2), K0 as (o1 & K3 & K4). rewrite H in K3. injection K3 as <-. exists o'. split; auto. rewrite K2, K4. f_equal.
  apply reported_agree. apply with_arg_agree. tauto.
Qed.
(** the same for set_parameters *)
Theorem C132_set : forall c ref fs V const op kw k v o o1, In (c, ref, fs) setters -> ~ In k ("self" :: app ref (names fs)) ->
  configured V const op c o -> set_parameters V const op table c kw o = Ret o1 ->
  exists o', set_parameters V const op table c (with_arg V k v kw) o = Ret o' /\ get_parameters V table c o' = get_parameters V table c o1.
Proof.
  intros c ref fs V const op kw k v o o1 I N C H. simpl in N. rewrite in_app_iff in N.
  assert (K := C130_set c ref fs V const op (with_arg V k v kw) o I C). rewrite (with_arg_given V) in K by (simpl; tauto).
  assert (K0 := C130_set c ref fs V const op kw o I C). destruct (given V kw ("self" :: ref)); [congruence|].
  destruct K as (o' & K1 & K2), K0 as (o2 & K3 & K4). rewrite H in K3. injection K3 as <-. exists o'. split; auto. rewrite K2, K4. f_equal.
  apply reported_agree. apply with_arg_agree. tauto.
Qed.

(** ** Examples: the values are forms, literals stand for themselves *)
Module Ex.
Definition kwl (l : dict form) : kwargs form := get form l.
Definition make (c : string) (l : dict form) : outcome (dict form) := construct form Lit Fun table c (kwl l).
Definition set_on (c : string) (l : dict form) (r : outcome (dict form)) : outcome (dict form) := andthen r (set_parameters form Lit Fun table c (kwl l)).
Definition get_of (c : string) (r : outcome (dict form)) : outcome (dict form) := andthen r (get_parameters form table c).
Definition attr (k : string) (r : outcome (dict form)) : option form := match r with Ret o => get form o k | Raise _ => None end.
Definition made_of (r : outcome (dict form)) : dict form := match r with Ret o => o | Raise _ => [] end.
(** C129: BatAlgorithm(population_size=7, loudness=0.5).get_parameters(); ArtificialBeeColonyAlgorithm(individual_type=Individual) *)
Example C129_bat : get_of "BatAlgorithm" (make "BatAlgorithm" [("population_size", Lit "7"); ("loudness", Lit "0.5")])
  = Ret [("population_size", Lit "7"); ("initialization_function", Lit "default_numpy_init"); ("individual_type", Lit "None"); ("loudness", Lit "0.5");
         ("pulse_rate", Lit "1"); ("alpha", Lit "0.97"); ("gamma", Lit "0.1"); ("min_frequency", Lit "0"); ("max_frequency", Lit "2")].
Proof. vm_compute. reflexivity. Qed.
Example C129_abc : given form (kwl [("individual_type", Lit "Individual")]) ["self"; "initialization_function"; "individual_type"] = true
  /\ make "ArtificialBeeColonyAlgorithm" [("individual_type", Lit "Individual")] = Raise EType.
Proof. vm_compute. split; reflexivity. Qed.
(** C130: a particle swarm made with c1=3, then set_parameters(c2=4): c1 is 2 again *)
Definition pso := "ParticleSwarmOptimization".
Definition pso3 := make pso [("c1", Lit "3")].
Lemma pso3_configured : configured form Lit Fun pso (made_of pso3).
Proof. apply (made form Lit Fun pso (kwl [("c1", Lit "3")])). vm_compute. reflexivity. Qed.
Example C130_pso : attr "c1" pso3 = Some (Lit "3") /\ attr "c1" (set_on pso [("c2", Lit "4")] pso3) = Some (Lit "2")
  /\ attr "c2" (set_on pso [("c2", Lit "4")] pso3) = Some (Lit "4").
Proof. vm_compute. repeat split; reflexivity. Qed.
Example C130_reefs : configured form Lit Fun "CoralReefsOptimization" (made_of (make "CoralReefsOptimization" []))
  /\ set_on "CoralReefsOptimization" [] (make "CoralReefsOptimization" []) = Raise EType.
Proof. split; [apply (made form Lit Fun _ (kwl []))|]; vm_compute; reflexivity. Qed.
(** C131: what set_parameters( **get_parameters()) does to a genetic algorithm, simulated annealing and the camel algorithm *)
Definition trip (c : string) (r : outcome (dict form)) : outcome (dict form) := andthen r (round_trip form Lit Fun c).
Example C131_genetic : trip "GeneticAlgorithm" (make "GeneticAlgorithm" [("mutation_rate", Lit "0.9")]) = make "GeneticAlgorithm" [("mutation_rate", Lit "0.9")]
  /\ attr "mutation_rate" (make "GeneticAlgorithm" [("mutation_rate", Lit "0.9")]) = Some (Lit "0.9").
Proof. vm_compute. split; reflexivity. Qed.
Example C131_annealing : attr "cooling_method" (make "SimulatedAnnealing" [("cooling_method", Lit "cool_linear")]) = Some (Lit "cool_linear")
  /\ attr "cooling_method" (trip "SimulatedAnnealing" (make "SimulatedAnnealing" [("cooling_method", Lit "cool_linear")])) = Some (Lit "cool_delta").
Proof. vm_compute. split; reflexivity. Qed.
Example C131_camel : (exists o, make "CamelAlgorithm" [] = Ret o) /\ trip "CamelAlgorithm" (make "CamelAlgorithm" []) = Raise EType.
Proof. split; [eexists|]; vm_compute; reflexivity. Qed.
(** C132: BatAlgorithm(loundness=0.5) makes a bat algorithm of loudness 1 *)
Example C132_bat : get_of "BatAlgorithm" (make "BatAlgorithm" [("loundness", Lit "0.5")]) = get_of "BatAlgorithm" (make "BatAlgorithm" [])
  /\ attr "loudness" (make "BatAlgorithm" [("loundness", Lit "0.5")]) = Some (Lit "1").
Proof. vm_compute. split; reflexivity. Qed.
End Ex.
(** The defaults of set_parameters are not those of the constructor in general: BatAlgorithm() has 40 bats, and 20 after set_parameters(). *)
Theorem C130_defaults_refuted : exists c o o', construct form Lit Fun table c (fun _ => None) = Ret o
  /\ set_parameters form Lit Fun table c (fun _ => None) o = Ret o' /\ get form o "population_size" <> get form o' "population_size".
Proof.
  exists "BatAlgorithm", (Ex.made_of (Ex.make "BatAlgorithm" [])), (Ex.made_of (Ex.set_on "BatAlgorithm" [] (Ex.make "BatAlgorithm" []))).
  vm_compute. split; [reflexivity|split; [reflexivity|discriminate]].
Qed.
(** set_parameters does not keep the parameters that are not given. *)
Theorem C130_kept_refuted : exists c o kw o' k, configured form Lit Fun c o /\ kw k = None
  /\ set_parameters form Lit Fun table c kw o = Ret o' /\ get form o k <> get form o' k.
Proof.
  exists Ex.pso, (Ex.made_of Ex.pso3), (Ex.kwl [("c2", Lit "4")]), (Ex.made_of (Ex.set_on Ex.pso [("c2", Lit "4")] Ex.pso3)), "c1".
  split; [exact Ex.pso3_configured|]. vm_compute. split; [reflexivity|split; [reflexivity|discriminate]].
Qed.
(** set_parameters( **get_parameters()) is not the identity where it is accepted. *)
Theorem C131_identity_refuted : exists c o g o', configured form Lit Fun c o /\ get_parameters form table c o = Ret g
  /\ set_parameters form Lit Fun table c (get form g) o = Ret o' /\ o <> o'.
Proof.
  pose (r := Ex.make "SimulatedAnnealing" [("cooling_method", Lit "cool_linear")]).
  exists "SimulatedAnnealing", (Ex.made_of r), (Ex.made_of (Ex.get_of "SimulatedAnnealing" r)), (Ex.made_of (Ex.trip "SimulatedAnnealing" r)).
  split; [apply (made form Lit Fun _ (Ex.kwl [("cooling_method", Lit "cool_linear")])); vm_compute; reflexivity|].
  vm_compute. split; [reflexivity|split; [reflexivity|discriminate]].
Qed.
Print Assumptions C130_fresh.
Print Assumptions C131_same.
