(** * ArgsSpec: the vocabulary of properties C55-C57 and C65. *)
From Coq Require Import Reals Lra.
From Verif Require Import PyBase Args.
Local Open Scope R_scope.
Local Open Scope string_scope.
Local Open Scope list_scope.

(** Event [i] of the history [es] created object [o] of class [c], under the name the
    user gave ([None] if none was given). *)
Definition creates (es : list event) (rs : list (option (res nat))) (i : nat)
  (c : pycls) (name : option string) (o : nat) : Prop :=
  (exists a hit, nth_error es i = Some (Create c name a hit)) /\ nth_error rs i = Some (Some (Ok o)).

(** No event of the history uses the empty string as a name. *)
Definition no_empty_names (es : list event) : Prop :=
  forall c a hit, ~ In (Create c (Some "") a hit) es.

(** The states of the interpreter that can be reached. *)
Definition reachable (w : world) : Prop :=
  exists es, no_empty_names es /\ fst (exec start es) = w.

(** [min > max], for numbers. *)
Definition crossed (mn mx : pyval) : Prop :=
  exists x y, num_of mn = Some x /\ num_of mx = Some y /\ y < x.
(** The bounds are not given, or numbers in the right order. *)
Definition ordered (mn mx : pyval) : Prop :=
  mn = PNone \/ mx = PNone \/ exists x y, num_of mn = Some x /\ num_of mx = Some y /\ x <= y.

(** Object [o] is a Parameter called [n] with these attributes. *)
Definition is_parameter (w : world) (o : nat) (n : string) (value mn mx fixed : pyval) : Prop :=
  exists x, obj w o = Some x /\ cls_par (o_cls x) = true /\ o_name x = n /\ o_value x = Some value /\
    o_min x = Some mn /\ o_max x = Some mx /\ o_fixed x = Some fixed.

(** What the user asked for attribute [k] of the [i]-th of the parameters to be: the
    default, the one value, or the [i]-th element of the sequence. *)
Definition default (k : slot) : pyval :=
  match k with Value => PNum 1 | Min => PNone | Max => PNone | Fixed => PBool false end.
Definition requested (kw : kwargs) (k : slot) (i : nat) : option pyval :=
  match kw k with
  | None => Some (default k)
  | Some (Scalar v) => Some v
  | Some (Sized l) => nth_error l i
  | Some (Iterator l) => nth_error l i
  | Some (Endless v) => Some v
  end.

Definition is_scalar (o : option kwarg) : Prop :=
  match o with None => True | Some (Scalar _) => True | _ => False end.

(** Every sequence with a length has the length [n], and every iterator has enough elements. *)
Definition lengths_ok (kw : kwargs) (n : nat) : Prop :=
  forall k, match kw k with
            | Some (Sized l) => List.length l = n
            | Some (Iterator l) => (n <= List.length l)%nat
            | _ => True
            end.

(** If both bounds are sequences, the elements that are compared are numbers, and the
    comparison ends. *)
Definition numbers (l : list pyval) : Prop := forall v, In v l -> v <> PNone.
Definition comparable (kw : kwargs) : Prop :=
  match kw Min, kw Max with
  | Some (Scalar _), _ | None, _ | _, Some (Scalar _) | _, None => True
  | Some (Endless _), Some (Endless _) => False
  | Some a, Some b => numbers (fst (contents a)) /\ numbers (fst (contents b)) /\
                      snd (contents a) <> Some PNone /\ snd (contents b) <> Some PNone
  end.

(** If both bounds are sequences, neither is an iterator that can be read only once. *)
Definition no_oneshot_bounds (kw : kwargs) : Prop :=
  forall l, (kw Min = Some (Iterator l) -> is_scalar (kw Max)) /\ (kw Max = Some (Iterator l) -> is_scalar (kw Min)).
