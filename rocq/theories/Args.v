(** * Args: creating Variables and Parameters.

    Models symfit/core/argument.py:12-149 and [parameters] of
    symfit/core/support.py:182-234.

    sympy's [Symbol.__new__], which Argument.__new__ calls, keeps a cache of symbols
    keyed by class, name and assumptions, so that creating a symbol twice normally gives
    the same object; an entry may be evicted at any time.  The model therefore has a
    table of objects and such a cache, and every creation has a flag [hit] saying
    whether a cached object, if any, is still there; theorems quantify over it.
    Simplifications: no assumptions beyond [real=True]; names are None or strings. *)
From Coq Require Import Reals Lra.
From Verif Require Import PyBase.
Local Open Scope R_scope.
Local Open Scope string_scope.
Local Open Scope list_scope.

(** Values of the attributes of a Parameter. *)
Inductive pyval : Type := PNone | PNum (r : R) | PBool (b : bool).

Definition num_of (v : pyval) : option R :=
  match v with PNone => None | PNum r => Some r | PBool true => Some 1 | PBool false => Some 0 end.

(** [a > b]; TypeError if one of them is None. *)
Definition gt (a b : pyval) : res bool :=
  match num_of a, num_of b with
  | Some x, Some y => Ok (if Rlt_dec y x then true else false)
  | _, _ => Raise TypeError
  end.

(** [bool(v)] *)
Definition truthy (v : pyval) : bool :=
  match v with PNone => false | PNum r => if Req_EM_T r 0 then false else true | PBool b => b end.

Definition is_none (v : pyval) : bool := match v with PNone => true | _ => false end.

(** A subclass of Argument: identity, [_argument_name] (inherited by subclasses) and
    whether it derives from Parameter. *)
Record pycls := { cls_id : nat; cls_prefix : string; cls_par : bool }.
#[export] Instance eqdec_pycls : EqDec pycls.
Proof. intros x y. pose proof Nat.eq_dec. pose proof string_dec. pose proof bool_dec. decide equality. Defined.
(** symfit/core/argument.py:84-96 and 144-149 *)
Definition CVariable : pycls := {| cls_id := 0; cls_prefix := "var"; cls_par := false |}.
Definition CParameter : pycls := {| cls_id := 1; cls_prefix := "par"; cls_par := true |}.

(** An object; a slot that was never assigned is [None] (reading it: AttributeError). *)
Record pobj := {
  o_cls : pycls;
  o_name : string;
  o_index : nat;
  o_value : option pyval;
  o_min : option pyval;
  o_max : option pyval;
  o_fixed : option pyval
}.

Record world := {
  w_objs : list pobj;                          (* object id = position *)
  w_cache : dict (pycls * string) nat;         (* sympy's symbol cache *)
  w_ctr : dict pycls nat                      (* Argument._argument_indices, a defaultdict(int) *)
}.
Definition start : world := {| w_objs := []; w_cache := []; w_ctr := [] |}.

Fixpoint set_nth {A} (l : list A) (i : nat) (x : A) : list A :=
  match l, i with
  | [], _ => []
  | _ :: l', O => x :: l'
  | y :: l', S i' => y :: set_nth l' i' x
  end.

Definition obj (w : world) (o : nat) : option pobj := nth_error (w_objs w) o.
Definition upd (w : world) (o : nat) (f : pobj -> pobj) : world :=
  match obj w o with
  | Some x => {| w_objs := set_nth (w_objs w) o (f x); w_cache := w_cache w; w_ctr := w_ctr w |}
  | None => w
  end.
Definition counter (w : world) (c : pycls) : nat :=
  match dget (w_ctr w) c with Some n => n | None => 0 end.

(** sympy [Symbol.__new__(cls, name, real=True)] with its cache. *)
Definition symbol_new (w : world) (c : pycls) (name : string) (hit : bool) : world * nat :=
  match (if hit then dget (w_cache w) (c, name) else None) with
  | Some o => (w, o)
  | None =>
      let o := List.length (w_objs w) in
      ({| w_objs := w_objs w ++ [{| o_cls := c; o_name := name; o_index := 0; o_value := None;
                                   o_min := None; o_max := None; o_fixed := None |}];
          w_cache := dset (w_cache w) (c, name) o; w_ctr := w_ctr w |}, o)
  end.

Definition auto_name (c : pycls) (n : nat) : string :=
  (cls_prefix c ++ "_" ++ string_of_nat n)%string.

(** symfit/core/argument.py:34-57 [Argument.__new__] *)
Definition argument_new (w : world) (c : pycls) (name : option string) (hit : bool) : world * nat :=
  let k := counter w c in
  let n := match name with
           | Some s => if string_dec s "" then auto_name c k else s
           | None => auto_name c k
           end in
  let '(w1, o) := symbol_new w c n hit in
  let w2 := upd w1 o (fun x => {| o_cls := o_cls x; o_name := o_name x; o_index := k; o_value := o_value x;
                                  o_min := o_min x; o_max := o_max x; o_fixed := o_fixed x |}) in
  ({| w_objs := w_objs w2; w_cache := w_cache w2; w_ctr := dset (w_ctr w2) c (S k) |}, o).

(** symfit/core/argument.py:59-64 [Argument.__init__] *)
Definition argument_init (w : world) (o : nat) (name : option string) : world :=
  match name with
  | Some s => upd w o (fun x => {| o_cls := o_cls x; o_name := s; o_index := o_index x; o_value := o_value x;
                                   o_min := o_min x; o_max := o_max x; o_fixed := o_fixed x |})
  | None => w
  end.

Record pargs := { a_value : pyval; a_min : pyval; a_max : pyval; a_fixed : pyval }.
(** The defaults of symfit/core/argument.py:107 *)
Definition defaults : pargs := {| a_value := PNum 1; a_min := PNone; a_max := PNone; a_fixed := PBool false |}.

(** symfit/core/argument.py:107-127 [Parameter.__init__]; assignments made before the
    exception stay made. *)
Definition parameter_init (w : world) (o : nat) (name : option string) (a : pargs) : world * res unit :=
  let w1 := argument_init w o name in
  let w2 := upd w1 o (fun x => {| o_cls := o_cls x; o_name := o_name x; o_index := o_index x;
                                  o_value := Some (a_value a); o_min := o_min x; o_max := o_max x;
                                  o_fixed := Some (a_fixed a) |}) in
  let bad := if is_none (a_min a) then Ok false else if is_none (a_max a) then Ok false
             else gt (a_min a) (a_max a) in
  match bad with
  | Raise e => (w2, Raise e)
  | Ok true => if truthy (a_fixed a) then (w2, Ok tt) else (w2, Raise ValueError)
  | Ok false =>
      (upd w2 o (fun x => {| o_cls := o_cls x; o_name := o_name x; o_index := o_index x; o_value := o_value x;
                             o_min := Some (a_min a); o_max := Some (a_max a); o_fixed := o_fixed x |}), Ok tt)
  end.

(** [cls(name, ..)]: [__new__] and then [__init__]. *)
Definition create (w : world) (c : pycls) (name : option string) (a : pargs) (hit : bool) : world * res nat :=
  let '(w1, o) := argument_new w c name hit in
  if cls_par c then
    let '(w2, r) := parameter_init w1 o name a in
    (w2, match r with Ok _ => Ok o | Raise e => Raise e end)
  else (argument_init w1 o name, Ok o).

(** [setattr(param, key, v)] for the four slots of a Parameter. *)
Inductive slot := Value | Min | Max | Fixed.
Definition setattr (k : slot) (v : pyval) (x : pobj) : pobj :=
  {| o_cls := o_cls x; o_name := o_name x; o_index := o_index x;
     o_value := match k with Value => Some v | _ => o_value x end;
     o_min := match k with Min => Some v | _ => o_min x end;
     o_max := match k with Max => Some v | _ => o_max x end;
     o_fixed := match k with Fixed => Some v | _ => o_fixed x end |}.
Definition getattr (k : slot) (x : pobj) : option pyval :=
  match k with Value => o_value x | Min => o_min x | Max => o_max x | Fixed => o_fixed x end.

(** ** Histories *)
Inductive event :=
| Create (c : pycls) (name : option string) (a : pargs) (hit : bool)
| Assign (o : nat) (k : slot) (v : pyval).

Definition step (w : world) (e : event) : world * option (res nat) :=
  match e with
  | Create c name a hit => let '(w', r) := create w c name a hit in (w', Some r)
  | Assign o k v => (upd w o (setattr k v), None)
  end.

Fixpoint exec (w : world) (es : list event) : world * list (option (res nat)) :=
  match es with
  | [] => (w, [])
  | e :: es' => let '(w1, r) := step w e in let '(w2, rs) := exec w1 es' in (w2, r :: rs)
  end.

(** ** symfit/core/support.py:182-234 [parameters] *)

(** A keyword argument: a single value, a sequence with a [len], an iterator without
    one, or an endless iterator such as itertools.repeat. *)
Inductive kwarg := Scalar (v : pyval) | Sized (l : list pyval) | Iterator (l : list pyval) | Endless (v : pyval).

Definition kwargs := slot -> option kwarg.

(** The elements a loop over the iterable would still produce: those of [l], then
    [more] for ever. *)
Definition contents (k : kwarg) : list pyval * option pyval :=
  match k with
  | Scalar v => ([], None)
  | Sized l => (l, None)
  | Iterator l => (l, None)
  | Endless v => ([], Some v)
  end.

(** What remains in the iterable after [n] elements have been taken from it: a list can be
    iterated again, an iterator can not. *)
Definition consumed (n : nat) (k : kwarg) : kwarg :=
  match k with Iterator l => Iterator (skipn n l) | _ => k end.

(** support.py:210-214: the loop over [zip(min, max)]. *)
Fixpoint zip_check (mins maxs : list pyval) : res unit :=
  match mins, maxs with
  | x :: mins', y :: maxs' =>
      b <- gt x y ;; if b : bool then Raise ValueError else zip_check mins' maxs'
  | _, _ => Ok tt
  end.

Definition check_bounds (kmin kmax : kwarg) : res (kwarg * kwarg) :=
  match contents kmin, contents kmax with
  | (l, None), (m, None) =>
      _ <- zip_check l m ;;
      Ok (consumed (S (List.length m)) kmin, consumed (List.length l) kmax)
  | (l, None), (_, Some v) => _ <- zip_check l (map (fun _ => v) l) ;; Ok (consumed (List.length l) kmin, kmax)
  | (_, Some v), (m, None) => _ <- zip_check (map (fun _ => v) m) m ;; Ok (kmin, consumed (List.length m) kmax)
  | (_, Some u), (_, Some v) => b <- gt u v ;; if b : bool then Raise ValueError else Raise OutOfFuel (* loops for ever *)
  end.

Definition is_seq (o : option kwarg) : option kwarg :=
  match o with Some (Scalar _) => None | _ => o end.
Definition scalar_or (d : pyval) (o : option kwarg) : pyval :=
  match o with Some (Scalar v) => v | _ => d end.

(** [symbols(names, cls=Parameter, seq=True, ..)] for the list of names: one call of
    Parameter per name, in order. *)
Fixpoint make_all (w : world) (names : list string) (a : pargs) (hit : string -> bool) : world * res (list nat) :=
  match names with
  | [] => (w, Ok [])
  | n :: names' =>
      match create w CParameter (Some n) a (hit n) with
      | (w1, Raise e) => (w1, Raise e)
      | (w1, Ok o) =>
          match make_all w1 names' a hit with
          | (w2, Ok os) => (w2, Ok (o :: os))
          | (w2, Raise e) => (w2, Raise e)
          end
      end
  end.

(** support.py:231-233: [for param, value in zip(params, values): setattr(..)]. *)
Fixpoint set_all (w : world) (k : slot) (os : list nat) (vs : list pyval) : world :=
  match os, vs with
  | o :: os', v :: vs' => set_all (upd w o (setattr k v)) k os' vs'
  | _, _ => w
  end.

(** support.py:218-233 for one entry of [sequences]; the attributes are assigned even if
    the lengths differ. *)
Definition apply_seq (w : world) (os : list nat) (k : slot) (v : kwarg) : world * res unit :=
  match v with
  | Scalar _ => (w, Ok tt)
  | Sized l => (set_all w k os l, if Nat.eqb (List.length l) (List.length os) then Ok tt else Raise ValueError)
  | Iterator l => (set_all w k os l, Ok tt)
  | Endless x => (set_all w k os (map (fun _ => x) os), Ok tt)
  end.

Fixpoint apply_seqs (w : world) (os : list nat) (seqs : list (slot * kwarg)) : world * res unit :=
  match seqs with
  | [] => (w, Ok tt)
  | (k, v) :: seqs' =>
      match apply_seq w os k v with
      | (w1, Ok _) => apply_seqs w1 os seqs'
      | (w1, Raise e) => (w1, Raise e)
      end
  end.

Definition entry (k : slot) (o : option kwarg) : list (slot * kwarg) :=
  match o with Some v => [(k, v)] | None => [] end.

Definition parameters (w : world) (names : list string) (kw : kwargs) (hit : string -> bool)
  : world * res (list nat) :=
  let smin := is_seq (kw Min) in
  let smax := is_seq (kw Max) in
  let checked := match smin, smax with
                 | Some a, Some b => p <- check_bounds a b ;; Ok (Some (fst p), Some (snd p))
                 | _, _ => Ok (smin, smax)
                 end in
  match checked with
  | Raise e => (w, Raise e)
  | Ok (smin', smax') =>
      let a := {| a_value := scalar_or (a_value defaults) (kw Value);
                  a_min := scalar_or (a_min defaults) (kw Min);
                  a_max := scalar_or (a_max defaults) (kw Max);
                  a_fixed := scalar_or (a_fixed defaults) (kw Fixed) |} in
      match make_all w names a hit with
      | (w1, Raise e) => (w1, Raise e)
      | (w1, Ok os) =>
          match apply_seqs w1 os (entry Value (is_seq (kw Value)) ++ entry Min smin' ++ entry Max smax'
                                  ++ entry Fixed (is_seq (kw Fixed))) with
          | (w2, Ok _) => (w2, Ok os)
          | (w2, Raise e) => (w2, Raise e)
          end
      end
  end.

(** ** Pickling, symfit/core/argument.py:66-75.  The pickle holds the class, the name and
    the slots of the class that are set ([__slots__] of Parameter; Variable has none);
    loading calls [cls.__new__(cls, name)] and then [__setstate__]; [__init__] is not
    called. *)
Record pickle := { k_cls : pycls; k_name : string; k_state : list (slot * pyval) }.

Definition dumps (x : pobj) : pickle :=
  {| k_cls := o_cls x; k_name := o_name x;
     k_state := if cls_par (o_cls x) then
                  flat_map (fun k => match getattr k x with Some v => [(k, v)] | None => [] end) [Min; Max; Fixed; Value]
                else [] |}.

Definition loads (w : world) (p : pickle) (hit : bool) : world * nat :=
  let '(w1, o) := argument_new w (k_cls p) (Some (k_name p)) hit in
  (fold_left (fun w' kv => upd w' o (setattr (fst kv) (snd kv))) (k_state p) w1, o).
