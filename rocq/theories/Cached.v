(** * Cached: [cached_property], symfit/core/support.py:237-281, and pickling of
    models, symfit/core/models.py:520-532.

    An object is its [__dict__].  A class is its cached properties; the decorated
    function of each is a program that may read attributes and properties of
    [self], handle the exceptions of those reads, and returns or raises.  What
    the property functions compute is arbitrary.  Simplifications: the decorated
    functions do not assign attributes themselves; infinite recursion is
    [OutOfFuel] (Python: RecursionError) after [fuel] nested calls. *)
From Verif Require Import PyBase.

Section Cached.
  Context {V : Type}.

  Inductive prog : Type :=
  | PRet (r : res V)                               (* return v / raise e *)
  | PGet (a : string) (k : res V -> prog).         (* x = self.a, possibly inside try *)

  Definition klass := dict string prog.            (* cached properties of the class *)

  (** [attrs] is [obj.__dict__]; [log] the decorated functions called so far. *)
  Record ostate := { attrs : dict string V; log : list string }.

  (** 248-251: [cache_attr = '_cached_' + fget.__name__] *)
  Definition base_str : string := "_cached".
  Definition cache_attr (p : string) : string := (base_str ++ "_" ++ p)%string.

  Section WithClass.
    Variable K : klass.

    Section Run.
      Variable get : string -> ostate -> res V * ostate.
      Fixpoint run (b : prog) (st : ostate) : res V * ostate :=
        match b with
        | PRet r => (r, st)
        | PGet a k => let '(r, st') := get a st in run (k r) st'
        end.
    End Run.

    (** Attribute access [obj.a]: 253-269 for a cached property, the instance dict
        otherwise. *)
    Fixpoint getattr (fuel : nat) (a : string) (st : ostate) : res V * ostate :=
      match fuel with
      | O => (Raise OutOfFuel, st)
      | S f =>
          match dget K a with
          | None => (of_opt AttributeError (dget (attrs st) a), st)
          | Some body =>
              match dget (attrs st) (cache_attr a) with
              | Some v => (Ok v, st)
              | None =>
                  match run (getattr f) body {| attrs := attrs st; log := log st ++ [a] |} with
                  | (Ok v, st') => (Ok v, {| attrs := dset (attrs st') (cache_attr a) v; log := log st' |})
                  | (Raise e, st') => (Raise e, st')
                  end
              end
          end
      end.

    (** [del obj.a]: 271-281 *)
    Definition delattr (a : string) (st : ostate) : res unit * ostate :=
      match dget K a with
      | Some _ => (Ok tt, {| attrs := ddel (attrs st) (cache_attr a); log := log st |})
      | None => match dget (attrs st) a with
                | None => (Raise AttributeError, st)
                | Some _ => (Ok tt, {| attrs := ddel (attrs st) a; log := log st |})
                end
      end.

    (** [obj.a = v]: a property without setter rejects it (237, class property). *)
    Definition setattr (a : string) (v : V) (st : ostate) : res unit * ostate :=
      match dget K a with
      | Some _ => (Raise AttributeError, st)
      | None => (Ok tt, {| attrs := dset (attrs st) a v; log := log st |})
      end.

    (** Histories of operations on one object. *)
    Inductive op := ORead (a : string) | ODel (a : string) | OSet (a : string) (v : V).
    Definition exec (fuel : nat) (o : op) (st : ostate) : ostate :=
      match o with
      | ORead a => snd (getattr fuel a st)
      | ODel a => snd (delattr a st)
      | OSet a v => snd (setattr a v st)
      end.
    Definition history (fuel : nat) (h : list op) (st : ostate) : ostate := fold_left (fun s o => exec fuel o s) h st.
  End WithClass.

  (** *** Pickling, models.py:520-532.  [sig_attr] is ['__signature__'];
      [make_sig] is [self._make_signature()] (679-687) and reads attributes.  The
      values themselves survive pickling unchanged. *)
  Definition sig_attr : string := "__signature__".
  Definition getstate (st : ostate) : res (dict string V) :=
    match dget (attrs st) sig_attr with
    | None => Raise KeyError
    | Some _ => Ok (filter (fun kv => negb (String.prefix base_str (fst kv))) (ddel (attrs st) sig_attr))
    end.
  Definition setstate (make_sig : dict string V -> res V) (state : dict string V) : res ostate :=
    let d := dupdate [] state in
    s <- make_sig d ;;
    Ok {| attrs := dset d sig_attr s; log := [] |}.
  Definition pickle_roundtrip (make_sig : dict string V -> res V) (st : ostate) : res ostate :=
    state <- getstate st ;; setstate make_sig state.
End Cached.
