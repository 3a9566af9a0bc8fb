(** * RenameSpec: the same model, data and constraints with other names. *)
From Coq Require Import Reals Permutation.
From Verif Require Import PyBase Expr Model ModelSpec ExprR NumPy Objective Minimizer MinSpec Fit FitSpec Cast ArrModel ArrSpec ConModel EndSpec.
Local Open Scope list_scope.

(** New names for the variables and for the parameters. *)
Definition new_name (fv fp : string -> string) (s : sym) : sym :=
  match s with SVar n => SVar (fv n) | SPar n => SPar (fp n) | SDer y ps => SDer (fv y) (map fp ps) end.
(** The expression with every symbol replaced by its new name. *)
Fixpoint with_names (fv fp : string -> string) (e : expr) : expr :=
  match e with
  | ENum z => ENum z
  | ESym s => ESym (new_name fv fp s)
  | EAdd a b => EAdd (with_names fv fp a) (with_names fv fp b)
  | EMul a b => EMul (with_names fv fp a) (with_names fv fp b)
  | EPow a n => EPow (with_names fv fp a) n
  | EInv a => EInv (with_names fv fp a)
  | EFun f a => EFun f (with_names fv fp a)
  end.
(** [e'] is [e] with the new names, up to the form sympy gives it: the same symbols occur and the value is the same. *)
Definition renamed_expr (rho : sym -> sym) (e e' : expr) : Prop :=
  (forall t, mentions e' t <-> exists s, mentions e s /\ t = rho s) /\ forall env, eval Ralg env e' = eval Ralg (fun s => env (rho s)) e.
(** The model dict [es'] is [es] with the new names. *)
Definition renamed_model (rho : sym -> sym) (es es' : dict sym expr) : Prop :=
  (forall k e, In (k, e) es -> exists e', In (rho k, e') es' /\ renamed_expr rho e e') /\
  (forall k' e', In (k', e') es' -> exists k e, In (k, e) es /\ k' = rho k /\ renamed_expr rho e e').
Definition renamed_con (rho : sym -> sym) (u u' : user_con) : Prop :=
  uc_rel u' = uc_rel u /\ renamed_expr rho (uc_left u) (uc_left u') /\ renamed_expr rho (uc_right u) (uc_right u').
(** The symbols of the model and of its constraints; their new names differ. *)
Definition used (es : dict sym expr) (us : list user_con) (s : sym) : Prop :=
  symbol_of (comps (V:=R) es) s \/ exists u, In u us /\ (mentions (uc_left u) s \/ mentions (uc_right u) s).
Definition good_naming (rho : sym -> sym) (es : dict sym expr) (us : list user_con) : Prop :=
  (forall s t, used es us s -> used es us t -> rho s = rho t -> s = t).
(** The data come under the new names, and the parameters have their attributes under the new names. *)
Definition renamed_data (rho : sym -> sym) (es : dict sym expr) (us : list user_con) (Y S Y' S' : sym -> option nd) : Prop :=
  forall v, used es us v -> is_par v = false -> Y' (rho v) = Y v /\ S' (rho v) = S v.
Definition renamed_parameters (rho : sym -> sym) (ps : list sym) (h h' : heap) : Prop := forall p, In p ps -> h' (rho p) = h p.

(** scipy's vectors [x] and [x'] give a parameter and its namesake the same value: the entries of [x'] are those of [x], in the alphabetical order of the new names. *)
Definition same_values (rho : sym -> sym) (h h' : heap) (ps ps' : list sym) (x x' : list R) : Prop :=
  forall p, In p ps -> parameter_value h' ps' x' (rho p) = parameter_value h ps x p.
