(** * Signature: [inspect.Signature] / [Signature.bind] of the Python standard
    library, as used by symfit/core/models.py:646, 679-687, 730,
    symfit/core/fit.py:55-73, 117-153, 373, 410-431 and symfit/core/minimizers.py:248-253, 273-300.

    Modelled for the two parameter kinds symfit uses, POSITIONAL_OR_KEYWORD and
    KEYWORD_ONLY.  All errors of [bind] are TypeError, so the order in which they
    are detected is immaterial.  Names are assumed to be identifiers. *)
From Verif Require Import PyBase.

Record sparam := { sp_name : string; sp_kwonly : bool; sp_default : bool }.

(** A parameter without default, POSITIONAL_OR_KEYWORD. *)
Definition pos_param (n : string) : sparam :=
  {| sp_name := n; sp_kwonly := false; sp_default := false |}.

Definition signature := list sparam.

(** [Signature.__init__]: duplicate names, a positional parameter after a
    keyword-only one, and a positional parameter without default after one with a
    default are rejected with ValueError. *)
Fixpoint kinds_ok (seen_kw seen_def : bool) (ps : list sparam) : bool :=
  match ps with
  | [] => true
  | p :: ps' =>
      if sp_kwonly p then kinds_ok true seen_def ps'
      else if seen_kw then false
      else if seen_def && negb (sp_default p) then false
      else kinds_ok seen_kw (seen_def || sp_default p) ps'
  end.

Fixpoint nodupb {A} `{EqDec A} (l : list A) : bool :=
  match l with [] => true | x :: l' => negb (inb x l') && nodupb l' end.

Definition mk_signature (ps : list sparam) : res signature :=
  if kinds_ok false false ps && nodupb (map sp_name ps) then Ok ps else Raise ValueError.

Section Bind.
  Context {V : Type}.

  (** First loop of [Signature._bind]: consume positional arguments. *)
  Fixpoint bind_pos (ps : list sparam) (args : list V) (kw : dict string V)
           (acc : dict string V) {struct args} : res (dict string V * list sparam) :=
    match args with
    | [] => Ok (acc, ps)
    | a :: args' =>
        match ps with
        | [] => Raise TypeError                      (* too many positional arguments *)
        | p :: ps' =>
            if sp_kwonly p then Raise TypeError
            else if dmem kw (sp_name p) then Raise TypeError   (* multiple values *)
            else bind_pos ps' args' kw (acc ++ [(sp_name p, a)])
        end
    end.

  (** Second loop: the remaining parameters take their value from the keywords. *)
  Fixpoint bind_kw (partial : bool) (ps : list sparam) (kw : dict string V)
           (acc : dict string V) : res (dict string V) :=
    match ps with
    | [] => Ok acc
    | p :: ps' =>
        match dget kw (sp_name p) with
        | Some v => bind_kw partial ps' kw (acc ++ [(sp_name p, v)])
        | None => if partial || sp_default p then bind_kw partial ps' kw acc
                  else Raise TypeError                (* missing a required argument *)
        end
    end.

  (** [bind] ([partial = false]) and [bind_partial] ([partial = true]); the result
      is [BoundArguments.arguments], which does not contain defaults. *)
  Definition sig_bind_gen (partial : bool) (s : signature) (args : list V) (kw : dict string V)
    : res (dict string V) :=
    '(acc, rest) <- bind_pos s args kw [] ;;
    out <- bind_kw partial rest kw acc ;;
    if forallb (fun k => inb k (map sp_name rest)) (dkeys kw) then Ok out
    else Raise TypeError.                             (* unexpected keyword argument *)

  Definition sig_bind := sig_bind_gen false.
  Definition sig_bind_partial := sig_bind_gen true.
End Bind.
