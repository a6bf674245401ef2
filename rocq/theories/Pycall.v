(** Python's calls with keyword arguments, as far as the constructors, set_parameters and get_parameters of the classes in
    src/niapy/algorithms use them (the classes themselves are in ParamTable.v).

    Values are an arbitrary type [V]: literals, functions and classes are given by [const] of their source text, and any other
    expression (such as int(self.population_size * self.clone_factor)) is an arbitrary function [op] of its operands, named by its
    source text; computing it does not raise. A dictionary of keyword arguments is a function from names to optional values. *)
From Coq Require Import String List Bool Arith.
From Verif Require Import Task.
Import ListNotations.
Local Open Scope string_scope.

(** ** Syntax *)
Inductive expr : Type :=
| ELocal (x : string)                   (* a parameter or local variable *)
| EConst (s : string)                   (* an expression without variables *)
| ESelf (a : string)                    (* self.a *)
| EPop (k : string) (d : expr)          (* kwargs.pop('k', d) *)
| EOp (f : string) (es : list expr).    (* any other expression, an operand written _ *)
(** what the method is looked up in: super(c, self), where super() in the class c is the same; the class c; self *)
Inductive target : Type := SuperOf (c : string) | TClass (c : string) | TSelf.
Inductive stmt : Type :=
| SPop (k : string)                     (* kwargs.pop('k', None) *)
| SLocal (x : string) (e : expr)        (* x = e *)
| SAttr (a : string) (e : expr)         (* self.a = e *)
| SCall (t : target) (m : string) (pos : list expr) (star : bool) (kw : list (string * expr)) (dstar : bool).
  (* t.m(pos, *args, k=e, **kwargs), with *args if star and with **kwargs if dstar *)
(** parameters after self with their defaults, whether there is *args (all have **kwargs), and the body *)
Record meth : Type := Meth { m_params : list (string * string); m_var : bool; m_body : list stmt }.
(** values in the dictionary displayed by get_parameters: self.a and d.pop('k', self.a) *)
Inductive gexpr : Type := GAttr (a : string) | GPopD (k a : string).
(** d.update(t.get_parameters()), also used for d = t.get_parameters(); d.update({...}); d.pop('k', None) *)
Inductive gstmt : Type := GCall (t : target) | GUpdate (kvs : list (string * gexpr)) | GPop (k : string).
Record pyclass : Type := PyClass { pc_name : string; pc_bases : list string; pc_init : option meth; pc_set : option meth; pc_get : option (list gstmt) }.

(** ** The method resolution order *)
Definition class_of (T : list pyclass) (c : string) : option pyclass := find (fun p => String.eqb (pc_name p) c) T.
(** C3: the first head that is in no tail *)
Definition in_tail (c : string) (l : list string) : bool := match l with [] => false | _ :: t => existsb (String.eqb c) t end.
Definition good_head (ls : list (list string)) : option string :=
  find (fun c => negb (existsb (in_tail c) ls)) (flat_map (fun l => match l with [] => [] | c :: _ => [c] end) ls).
Definition drop_head (c : string) (l : list string) : list string := match l with x :: t => if String.eqb x c then t else l | [] => [] end.
Fixpoint c3_merge (fuel : nat) (ls : list (list string)) : list string :=
  match fuel with
  | O => []
  | S k => match good_head ls with Some c => c :: c3_merge k (map (drop_head c) ls) | None => [] end
  end.
Fixpoint mro (fuel : nat) (T : list pyclass) (c : string) : list string :=
  match fuel with
  | O => []
  | S k => match class_of T c with Some p => c :: c3_merge 20 (app (map (mro k T) (pc_bases p)) [pc_bases p]) | None => [] end
  end.
Fixpoint after (c : string) (l : list string) : list string := match l with [] => [] | x :: t => if String.eqb x c then t else after c t end.
(** the classes in which a method is looked up, for an object of class [c] *)
Definition places (T : list pyclass) (c : string) (t : target) : list string :=
  match t with SuperOf d => after d (mro 10 T c) | TClass d => mro 10 T d | TSelf => mro 10 T c end.
Fixpoint first_with {A} (T : list pyclass) (sel : pyclass -> option A) (l : list string) : option A :=
  match l with
  | [] => None
  | c :: l' => match match class_of T c with Some p => sel p | None => None end with Some x => Some x | None => first_with T sel l' end
  end.
Definition sel_method (m : string) (p : pyclass) : option meth := if String.eqb m "__init__" then pc_init p else pc_set p.

(** ** Calls *)
Section Calls.
Variable V : Type.
Variable const : string -> V.
Variable op : string -> list V -> V.
Variable T : list pyclass.
(** dictionaries: attributes and results of get_parameters as lists in the order of insertion, keyword arguments as functions *)
Definition dict := list (string * V).
Definition kwargs := string -> option V.
Fixpoint get (d : dict) (k : string) : option V := match d with [] => None | (k', v) :: d' => if String.eqb k' k then Some v else get d' k end.
Fixpoint put (d : dict) (k : string) (v : V) : dict :=
  match d with [] => [(k, v)] | (k', v') :: d' => if String.eqb k' k then (k, v) :: d' else (k', v') :: put d' k v end.
Definition del (d : dict) (k : string) : dict := filter (fun kv => negb (String.eqb (fst kv) k)) d.
Definition pop (kw : kwargs) (k : string) : kwargs := fun k' => if String.eqb k' k then None else kw k'.
Definition mem (k : string) (l : list string) : bool := existsb (String.eqb k) l.

(** the arguments of a method: a name given twice is a TypeError, as is an argument too many when there is no *args *)
Fixpoint bind_params (ps : list (string * string)) (pos : list V) (kw : kwargs) : outcome (dict * list V) :=
  match ps, pos with
  | [], _ => Ret ([], pos)
  | (p, d) :: ps', v :: pos' =>
      match kw p with
      | Some _ => Raise EType
      | None => match bind_params ps' pos' kw with Ret (l, r) => Ret ((p, v) :: l, r) | Raise e => Raise e end
      end
  | (p, d) :: ps', [] =>
      match bind_params ps' [] kw with
      | Ret (l, r) => Ret ((p, match kw p with Some v => v | None => const d end) :: l, r)
      | Raise e => Raise e
      end
  end.
Definition bind_call (m : meth) (pos : list V) (kw : kwargs) : outcome (dict * list V * kwargs) :=
  match kw "self" with
  | Some _ => Raise EType
  | None =>
      match bind_params (m_params m) pos kw with
      | Ret (l, r) =>
          match r with
          | _ :: _ => if m_var m then Ret (l, r, fun k => if mem k (map fst (m_params m)) then None else kw k) else Raise EType
          | [] => Ret (l, r, fun k => if mem k (map fst (m_params m)) then None else kw k)
          end
      | Raise e => Raise e
      end
  end.

(** expressions; kwargs.pop changes the dictionary *)
Fixpoint eval (loc : dict) (o : dict) (e : expr) (kw : kwargs) : outcome (V * kwargs) :=
  match e with
  | ELocal x => match get loc x with Some v => Ret (v, kw) | None => Raise EKey end
  | EConst s => Ret (const s, kw)
  | ESelf a => match get o a with Some v => Ret (v, kw) | None => Raise EAttr end
  | EPop k d => match eval loc o d kw with Ret (v, kw') => Ret (match kw' k with Some x => x | None => v end, pop kw' k) | Raise x => Raise x end
  | EOp f es =>
      match (fix go es kw := match es with
             | [] => Ret ([], kw)
             | e :: es' => match eval loc o e kw with
                           | Ret (v, kw1) => match go es' kw1 with Ret (vs, kw2) => Ret (v :: vs, kw2) | Raise x => Raise x end
                           | Raise x => Raise x end
             end) es kw with
      | Ret (vs, kw') => Ret (op f vs, kw')
      | Raise x => Raise x
      end
  end.
Fixpoint eval_all (loc : dict) (o : dict) (es : list expr) (kw : kwargs) : outcome (list V * kwargs) :=
  match es with
  | [] => Ret ([], kw)
  | e :: es' => match eval loc o e kw with
                | Ret (v, kw1) => match eval_all loc o es' kw1 with Ret (vs, kw2) => Ret (v :: vs, kw2) | Raise x => Raise x end
                | Raise x => Raise x end
  end.
(** the keyword arguments of a call: one that is also in **kwargs is a TypeError *)
Fixpoint clash (ks : list string) (kw : kwargs) : bool := match ks with [] => false | k :: ks' => match kw k with Some _ => true | None => clash ks' kw end end.
Definition with_kw (kvs : dict) (kw : kwargs) : kwargs := fun k => match get kvs k with Some v => Some v | None => kw k end.

(** a call of the method [m] of an object of class [c] with the attributes [o]; the depth of the calls is at most [fuel] *)
Fixpoint call (fuel : nat) (c : string) (t : target) (m : string) (pos : list V) (kw : kwargs) (o : dict) : outcome dict :=
  match fuel with
  | O => Raise EFuel
  | S n =>
      match first_with T (sel_method m) (places T c t) with
      | None => Raise EAttr
      | Some me =>
          match bind_call me pos kw with
          | Raise e => Raise e
          | Ret (loc, args, kw0) =>
              (fix run (ss : list stmt) (loc : dict) (kw : kwargs) (o : dict) : outcome dict :=
                 match ss with
                 | [] => Ret o
                 | SPop k :: ss' => run ss' loc (pop kw k) o
                 | SLocal x e :: ss' => match eval loc o e kw with Ret (v, kw') => run ss' (put loc x v) kw' o | Raise e => Raise e end
                 | SAttr a e :: ss' => match eval loc o e kw with Ret (v, kw') => run ss' loc kw' (put o a v) | Raise e => Raise e end
                 | SCall t' m' pos star kvs dstar :: ss' =>
                     match eval_all loc o pos kw with
                     | Raise e => Raise e
                     | Ret (vs, kw1) =>
                         match eval_all loc o (map snd kvs) kw1 with
                         | Raise e => Raise e
                         | Ret (ws, kw2) =>
                             if dstar && clash (map fst kvs) kw2 then Raise EType
                             else match call n c t' m' (app vs (if star then args else []))
                                               (with_kw (combine (map fst kvs) ws) (if dstar then kw2 else fun _ => None)) o with
                                  | Ret o' => run ss' loc kw2 o'
                                  | Raise e => Raise e
                                  end
                         end
                     end
                 end) (m_body me) loc kw0 o
          end
      end
  end.
(** get_parameters *)
Fixpoint gets (fuel : nat) (c : string) (t : target) (o : dict) : outcome dict :=
  match fuel with
  | O => Raise EFuel
  | S n =>
      match first_with T pc_get (places T c t) with
      | None => Raise EAttr
      | Some body =>
          (fix run (ss : list gstmt) (d : dict) : outcome dict :=
             match ss with
             | [] => Ret d
             | GCall t' :: ss' => match gets n c t' o with Ret d' => run ss' (fold_left (fun d kv => put d (fst kv) (snd kv)) d' d) | Raise e => Raise e end
             | GPop k :: ss' => run ss' (del d k)
             | GUpdate kvs :: ss' =>
                 (* the display is evaluated before it is put into d *)
                 match (fix disp (kvs : list (string * gexpr)) (d : dict) : outcome (dict * dict) :=
                          match kvs with
                          | [] => Ret ([], d)
                          | (k, GAttr a) :: kvs' =>
                              match get o a with
                              | Some v => match disp kvs' d with Ret (r, d') => Ret ((k, v) :: r, d') | Raise e => Raise e end
                              | None => Raise EAttr end
                          | (k, GPopD k' a) :: kvs' =>
                              match get o a with
                              | Some v => match disp kvs' (del d k') with
                                          | Ret (r, d') => Ret ((k, match get d k' with Some x => x | None => v end) :: r, d')
                                          | Raise e => Raise e end
                              | None => Raise EAttr end
                          end) kvs d with
                 | Ret (r, d') => run ss' (fold_left (fun d kv => put d (fst kv) (snd kv)) r d')
                 | Raise e => Raise e
                 end
             end) body []
      end
  end.
Definition depth : nat := 12.
(** C( **kw): an object is its attributes *)
Definition construct (c : string) (kw : kwargs) : outcome dict := call depth c TSelf "__init__" [] kw [].
(** o.set_parameters( **kw) and o.get_parameters() for an object [o] of class [c] *)
Definition set_parameters (c : string) (kw : kwargs) (o : dict) : outcome dict := call depth c TSelf "set_parameters" [] kw o.
Definition get_parameters (c : string) (o : dict) : outcome dict := gets depth c TSelf o.
End Calls.
