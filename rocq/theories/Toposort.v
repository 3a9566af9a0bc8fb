(** * Toposort: the [toposort] package (PyPI, >= 1.7) as used by
    symfit/core/models.py:14, 327 and 417.

    The package itself is a dependency, not part of /repo; it is modelled
    function by function because models.py relies on it for the evaluation order
    of every model.  Python sets are duplicate free lists; [toposort] yields sets,
    so the order inside a layer carries no meaning and is scrambled by an
    iteration oracle wherever models.py iterates over a layer. *)
From Verif Require Import PyBase.

Section Toposort.
  Context {A : Type} `{EqDec A}.

  (** [data = {item: set(e for e in dep if e != item) for item, dep in data.items()}] *)
  Definition strip_self (data : dict A (list A)) : dict A (list A) :=
    map (fun kd => (fst kd, filter (fun e => negb (eqb e (fst kd))) (snd kd))) data.

  (** [extra_items_in_deps = reduce(set.union, data.values()) - set(data.keys())] *)
  Definition extra_items (data : dict A (list A)) : list A :=
    diffl (dedup (concat (dvals data))) (dkeys data).

  (** [data.update({item: set() for item in extra_items_in_deps})] *)
  Definition prepare (data : dict A (list A)) : dict A (list A) :=
    let d := strip_self data in
    d ++ map (fun x => (x, [])) (extra_items d).

  (** [ordered = set(item for item, dep in data.items() if len(dep) == 0)] *)
  Definition ready (data : dict A (list A)) : list A :=
    map fst (filter (fun kd => match snd kd with [] => true | _ => false end) data).

  (** [data = {item: (dep - ordered) for item, dep in data.items() if item not in ordered}] *)
  Definition advance (data : dict A (list A)) (layer : list A) : dict A (list A) :=
    map (fun kd => (fst kd, diffl (snd kd) layer))
        (filter (fun kd => negb (inb (fst kd) layer)) data).

  (** The [while True] loop, on fuel; [OutOfFuel] is shown to be unreachable. *)
  Fixpoint peel (fuel : nat) (data : dict A (list A)) : res (list (list A)) :=
    match fuel with
    | 0 => Raise OutOfFuel
    | S fuel' =>
        match ready data with
        | [] => match data with [] => Ok [] | _ => Raise CircularDependencyError end
        | layer => rest <- peel fuel' (advance data layer) ;; Ok (layer :: rest)
        end
    end.

  (** [list(toposort(data))] *)
  Definition toposort (data : dict A (list A)) : res (list (list A)) :=
    match data with
    | [] => Ok []
    | _ => peel (S (List.length (prepare data))) (prepare data)
    end.
End Toposort.
