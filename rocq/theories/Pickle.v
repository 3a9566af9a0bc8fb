(** * Pickle: model objects as Python objects with an instance dict.

    symfit/core/models.py:312-349 (attributes), 351-427, 822-853, 863-867, 914-918
    (cached properties), 520-532 (pickling), 540-603 (numerical models keep the
    connectivity mapping in an ordinary attribute).  Left out: the cached
    properties [function_dict] and [jacobian] (symbolic expressions only), which
    are intermediate results of [jacobian_model]. *)
From Verif Require Import PyBase Signature Expr Toposort Model Jacobian Cached.

Section Pickle.
  Context {W : Type} (A : alg W) (simp : expr -> expr) (ord : list sym -> list sym).

  (** Attribute values. *)
  Inductive mval : Type :=
  | MDict (d : dict sym (comp (V:=W)))
  | MSyms (l : list sym)
  | MConn (c : dict sym (list sym))
  | MSigmas (d : dict sym sym)
  | MSig (s : signature)
  | MComps (l : list (sym * (dict string W -> res W)))
  | MModel (m : model (V:=W)).

  (** Reading attributes with the expected type. *)
  Definition get_dict (a : string) (k : dict sym comp -> prog) : prog :=
    PGet a (fun r => match r with Ok (MDict d) => k d | Ok _ => PRet (Raise TypeError) | Raise e => PRet (Raise e) end).
  Definition get_syms (a : string) (k : list sym -> prog) : prog :=
    PGet a (fun r => match r with Ok (MSyms d) => k d | Ok _ => PRet (Raise TypeError) | Raise e => PRet (Raise e) end).
  Definition get_conn (a : string) (k : dict sym (list sym) -> prog) : prog :=
    PGet a (fun r => match r with Ok (MConn d) => k d | Ok _ => PRet (Raise TypeError) | Raise e => PRet (Raise e) end).
  Definition get_sig (a : string) (k : signature -> prog) : prog :=
    PGet a (fun r => match r with Ok (MSig d) => k d | Ok _ => PRet (Raise TypeError) | Raise e => PRet (Raise e) end).
  Definition get_sigmas (a : string) (k : dict sym sym -> prog) : prog :=
    PGet a (fun r => match r with Ok (MSigmas d) => k d | Ok _ => PRet (Raise TypeError) | Raise e => PRet (Raise e) end).

  (** All attributes of a model object, read one after the other; [conn] is
      ["connectivity_mapping"], or ["_connectivity_mapping"] for numerical models. *)
  Definition with_model (conn : string) (k : model (V:=W) -> prog) : prog :=
    get_dict "model_dict" (fun d => get_conn conn (fun c => get_syms "independent_vars" (fun i =>
    get_syms "dependent_vars" (fun y => get_syms "interdependent_vars" (fun z => get_syms "_params" (fun p =>
    get_sig "__signature__" (fun s =>
      k {| m_dict := d; m_conn := c; m_indep := i; m_dep := y; m_inter := z; m_params := p; m_sig := s |}))))))).

  (** 391-403 *)
  Definition conn_body : prog := get_dict "model_dict" (fun d => PRet (c <- connectivity ord d ;; Ok (MConn c))).
  (** 422-427 *)
  Definition vars_body : prog :=
    get_syms "independent_vars" (fun i => get_syms "dependent_vars" (fun y => get_sigmas "sigmas" (fun s =>
      PRet (sg <- mapM (dlook s) y ;; Ok (MSyms (i ++ y ++ sg)))))).
  (** 822-826, 837-853 *)
  Definition comps_body (conn : string) : prog := with_model conn (fun m => PRet (Ok (MComps (map (numerical_component A m) (m_dict m))))).
  (** 863-867, 914-918 *)
  Definition jac_body (conn : string) : prog := with_model conn (fun m => PRet (j <- jacobian_model simp ord m ;; Ok (MModel j))).
  Definition hess_body (conn : string) : prog := with_model conn (fun m => PRet (j <- hessian_model simp ord m ;; Ok (MModel j))).

  (** Model, and CallableNumericalModel *)
  Definition model_class : klass :=
    [("connectivity_mapping", conn_body); ("vars", vars_body);
     ("numerical_components", comps_body "connectivity_mapping");
     ("jacobian_model", jac_body "connectivity_mapping"); ("hessian_model", hess_body "connectivity_mapping")].
  Definition numerical_class : klass :=
    [("vars", vars_body); ("numerical_components", comps_body "_connectivity_mapping")].

  (** 679-687 *)
  Definition make_sig (d : dict string mval) : res mval :=
    match dget d "independent_vars", dget d "_params" with
    | Some (MSyms i), Some (MSyms p) => s <- make_signature i p ;; Ok (MSig s)
    | _, _ => Raise AttributeError
    end.

  Definition sigmas_of (l : list sym) : dict sym sym := map (fun v => (v, SVar ("sigma_" ++ sname v))) l.
  (** The object after [__init__]: [_init_from_dict] has read (and so cached) the
      connectivity mapping (327). *)
  Definition plain_attrs (m : model (V:=W)) : dict string mval :=
    [("model_dict", MDict (m_dict m)); ("independent_vars", MSyms (m_indep m)); ("dependent_vars", MSyms (m_dep m));
     ("interdependent_vars", MSyms (m_inter m)); ("_params", MSyms (m_params m)); ("sigmas", MSigmas (sigmas_of (m_dep m)));
     ("__signature__", MSig (m_sig m))].
  Definition symbolic_object (m : model) : ostate :=
    {| attrs := plain_attrs m ++ [("_cached_connectivity_mapping", MConn (m_conn m))]; log := ["connectivity_mapping"] |}.
  Definition numerical_object (m : model) : ostate :=
    {| attrs := plain_attrs m ++ [("_connectivity_mapping", MConn (m_conn m))]; log := [] |}.

  (** What the methods of the object see: the model made of its current attributes. *)
  Definition read_prog (conn : string) : prog := with_model conn (fun m => PRet (Ok (MModel m))).
  Definition seen_model (K : klass) (conn : string) (fuel : nat) (st : ostate) : res model :=
    match run (getattr K fuel) (read_prog conn) st with
    | (Ok (MModel m), _) => Ok m
    | (Ok _, _) => Raise TypeError
    | (Raise e, _) => Raise e
    end.
End Pickle.
