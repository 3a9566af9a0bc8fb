(** * OdeSpec: what an ODE model means, without reference to how it is evaluated. *)
From Coq Require Import Reals Lra Sorted.
From Coquelicot Require Import Coquelicot.
From Verif Require Import PyBase PyFacts Expr Model ModelSpec ExprR JacAnalysis Ode.
Local Open Scope R_scope.
Local Open Scope list_scope.

(** The user's system: one equation D(y, t) = e for every unknown y. *)
Definition unknowns (items : dict odkey expr) : list sym := map (fun kv => od_y (fst kv)) items.
Definition first_order (items : dict odkey expr) (t : sym) : Prop :=
  items <> [] /\
  NoDup (unknowns items) /\ ~ In t (unknowns items) /\ is_par t = false /\
  (forall d e, In (d, e) items -> od_vars d = [t] /\ is_par (od_y d) = false /\ is_der (od_y d) = false) /\
  (forall d e s, In (d, e) items -> In s (occs e) -> s = t \/ In s (unknowns items) \/ is_par s = true).

(** The parameters of the problem: those of the equations, and Parameters given as
    initial value of an unknown or of anything else in [initial]. *)
Definition eq_param (items : dict odkey expr) (p : sym) : Prop :=
  is_par p = true /\ exists d e, In (d, e) items /\ In p (occs e).
Definition init_par (initial : dict sym oinit) (p : sym) : Prop := exists y, In (y, IPar p) initial.
Definition problem_param items initial p := eq_param items p \/ init_par initial p.

(** No two different symbols of the problem have the same name. *)
Definition ode_symbol items initial (t s : sym) : Prop :=
  s = t \/ In s (unknowns items) \/ problem_param items initial s.
Definition ode_names items initial t : Prop :=
  forall s s', ode_symbol items initial t s -> ode_symbol items initial t s' -> sname s = sname s' -> s = s'.

(** Values of all symbols at time [u]. *)
Definition at_time (items : dict odkey expr) (t : sym) (phi : sym -> R -> R) (inp : sym -> R) (u : R) : sym -> R :=
  fun s => if eq_dec s t then u else if inb s (unknowns items) then phi s u else inp s.

(** [phi] solves the equations on (lo, hi). *)
Definition solves (items : dict odkey expr) (t : sym) (inp : sym -> R) (phi : sym -> R -> R) (lo hi : R) : Prop :=
  forall d e u, In (d, e) items -> lo < u < hi ->
    defined (at_time items t phi inp u) e /\
    is_derive (phi (od_y d)) u (eval Ralg (at_time items t phi inp u) e).

Definition init_value (inp : sym -> R) (i : oinit) : R := match i with IVal r => r | IPar p => inp p end.
Definition starts (items : dict odkey expr) (initial : dict sym oinit) (inp : sym -> R) (phi : sym -> R -> R) (t0 : R) : Prop :=
  forall y, In y (unknowns items) -> exists i, dget initial y = Some i /\ phi y t0 = init_value inp i.

(** [phi] is the solution of the initial value problem on (lo, hi): the only one, also
    on every smaller interval around the initial time. *)
Definition the_solution items t initial inp t0 phi lo hi : Prop :=
  lo < t0 < hi /\ solves items t inp phi lo hi /\ starts items initial inp phi t0 /\
  forall psi lo' hi', lo <= lo' -> lo' < t0 < hi' -> hi' <= hi ->
    (forall d e u, In (d, e) items -> lo' < u < hi' ->
       is_derive (psi (od_y d)) u (eval Ralg (at_time items t psi inp u) e)) ->
    starts items initial inp psi t0 ->
    forall y u, In y (unknowns items) -> lo' < u < hi' -> psi y u = phi y u.

(** ** The integrator.  A trajectory of the problem handed to solve_ivp. *)
Definition trajectory (p : ivp) (lo hi : R) (Y : R -> list R) : Prop :=
  lo < fst (i_span p) < hi /\ Y (fst (i_span p)) = i_y0 p /\
  forall u, lo < u < hi -> List.length (Y u) = List.length (i_y0 p) /\
    exists dy, i_sys p u (Y u) (i_args p) = Ok dy /\ List.length dy = List.length (i_y0 p) /\
      forall i, (i < List.length dy)%nat -> is_derive (fun w => nth i (Y w) 0) u (nth i dy 0).

Definition replace_nth {X} (j : nat) (x : X) (l : list X) : list X := firstn j l ++ x :: skipn (S j) l.

(** The Jacobian handed to solve_ivp is that of the system, along [Y]. *)
Definition jac_correct (p : ivp) (lo hi : R) (Y : R -> list R) : Prop :=
  forall u, lo < u < hi -> exists J, i_jac p u (Y u) (i_args p) = Ok J /\ List.length J = List.length (i_y0 p) /\
    forall i j, (i < List.length (i_y0 p))%nat -> (j < List.length (i_y0 p))%nat ->
      List.length (nth i J []) = List.length (i_y0 p) /\
      is_derive (fun x => match i_sys p u (replace_nth j x (Y u)) (i_args p) with
                          | Ok f => nth i f 0 | Raise _ => 0 end)
                (nth j (Y u) 0) (nth j (nth i J []) 0).

(** An integrator that makes no numerical error: whenever the problem has a unique
    solution around the requested times and the Jacobian it is given is right, it
    reports that solution.  (Real integrators approximate it.) *)
Definition exact (S : ivp -> res ivp_result) : Prop :=
  forall p lo hi Y,
    trajectory p lo hi Y ->
    (forall lo' hi' Z, lo <= lo' -> hi' <= hi -> trajectory p lo' hi' Z ->
       forall u, lo' < u < hi' -> Z u = Y u) ->
    jac_correct p lo hi Y ->
    (forall u, In u (i_eval p) -> lo < u < hi) ->
    S p = Ok {| r_success := true; r_y := map Y (i_eval p) |}.

(** The values a user passes in a call. *)
Definition call_values (t : sym) (t_like : oval) (params : list sym) (inp : sym -> R) : list (string * oval) :=
  (sname t, t_like) :: map (fun p => (sname p, VNum (inp p))) params.

(** Symbols given as initial value are Parameters; the dict has each key once. *)
Definition initial_ok (initial : dict sym oinit) : Prop :=
  NoDup (dkeys initial) /\ forall y p, In (y, IPar p) initial -> is_par p = true.

(** The output [o] gives, for the unknowns in alphabetical order, the values of [phi]
    at the times [ts]; also by attribute. *)
Definition reports (items : dict odkey expr) (phi : sym -> R -> R) (o : model_output (list R)) (ts : list R) : Prop :=
  Permutation (mo_vars o) (unknowns items) /\ alphabetical sname (mo_vars o) /\
  mo_out o = map (fun y => map (phi y) ts) (mo_vars o) /\
  forall y, In y (unknowns items) -> mo_attr o (sname y) = Ok (map (phi y) ts).
