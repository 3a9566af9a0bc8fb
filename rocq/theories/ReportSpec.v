(** * ReportSpec: what the printed report of a fit should say, line by line. *)
From Coq Require Import Reals Ascii Sorted.
From Verif Require Import PyBase Expr NumPy Model Objective ObjSpec ArrModel ArrSpec EndSpec ResultsSpec Report.
Local Open Scope R_scope.
Local Open Scope string_scope.
Local Open Scope list_scope.

(** The lines of a text: split at newline characters (code 10). *)
Fixpoint lines (s : string) : list string :=
  match s with
  | EmptyString => [""]
  | String c s' =>
      if Ascii.eqb c (ascii_of_nat 10) then "" :: lines s'
      else match lines s' with l :: ls => String c l :: ls | [] => [String c ""] end
  end.
Definition one_line (s : string) : Prop := lines s = [s].
(** Numbers and expressions are printed without line breaks. *)
Definition plain_printer (pr : printer) : Prop :=
  (forall r, one_line (pr_e pr r)) /\ (forall r, one_line (pr_num pr r)) /\ (forall e, one_line (pr_expr pr e)).

(** The table of parameters ([rows]), the lines below it, the goodness of fit qualifiers ([gofs]) and, if there are any, the
    constraints with their questions and answers. *)
Definition report_lines (rows : list string) (status iterations objective minimizer : string) (gofs : list string) (cons : list (string * string)) : list string :=
  [""; "Parameter Value        Standard Deviation"] ++ rows ++
  ["Status message         " ++ status; "Number of iterations   " ++ iterations; "Objective              " ++ objective; "Minimizer              " ++ minimizer;
   ""; "Goodness of fit qualifiers:"]%string ++ gofs ++
  match cons with
  | [] => []
  | _ => [""; "Constraints:"; "--------------------"] ++ concat (map (fun qa => [fst qa; snd qa; ""]) cons) ++ [""]
  end.
(** The row of a parameter with value [v] and variance [c] (None: there is no covariance matrix): name, value, standard deviation. *)
Definition row_for (pr : printer) (name : string) (v : R) (c : option R) : string :=
  (pad 10 name ++ pr_e pr v ++ " " ++ match c with None => "None" | Some c => if Rlt_dec c 0 then "nan" else pr_e pr (sqrt c) end)%string.
(** Question and answer for a constraint that was given as an equation (else: an inequality) and became [e = 0] or [e >= 0] *)
Definition asked (pr : printer) (equation : bool) (e : expr) (v : R) : string * string :=
  ("Question: " ++ pr_expr pr e ++ (if equation then " == 0?" else " >= 0?"), "Answer:   " ++ pr_num pr v)%string.

(** R squared of the values [theta]: 1 minus the squared residuals over the squared deviations from the mean of each data set. *)
Definition r2_for (sol : (sym -> R) -> sym -> R) (m : amodel) (Y : sym -> option nd) (theta : sym -> R) : R :=
  1 - Rsum (map (fun v => match Y v with Some y => Rsum (map (fun i => (val y i - sol (at_data Y theta i) v) ^ 2) (indices (shp y))) | None => 0 end) (m_dep m)) /
      Rsum (map (fun v => match Y v with Some y => Rsum (map (fun i => (val y i - average y) ^ 2) (indices (shp y))) | None => 0 end) (m_dep m)).
(** A component printed as a function of variables [vs] and parameters [ps]. *)
Definition component_text (pr : printer) (v : sym) (vs ps : list sym) (e : expr) : string :=
  ((if is_der v then pr_expr pr (ESym v) else sname v) ++ "(" ++ join ", " (map sname vs) ++ "; " ++ join ", " (map sname ps) ++ ") = " ++ pr_expr pr e)%string.
(** [l] lists the symbols with property [P], each once, by name. *)
Definition listed_by_name (P : sym -> Prop) (l : list sym) : Prop := NoDup l /\ PyFacts.alphabetical sname l /\ forall s, In s l <-> P s.
