(** * ArrModel: evaluation of a symbolic model on arrays.

    symfit/core/models.py:640-656 (eval_components), 693-706 (__call__), 887-905
    (GradientModel.eval_jacobian), 930-950 (HessianModel.eval_hessian), with numpy
    arrays as arguments; and the interface [om_of] an objective sees. *)
From Coq Require Import Reals.
From Verif Require Import PyBase Signature Expr Model Jacobian ExprR NumPy Objective.
Local Open Scope R_scope.

(** Numpy arithmetic.  Shapes that cannot be broadcast together are a ValueError,
    which is carried along as a value: every component is returned in the end, so
    the whole call fails with it (the code stops at the first one). *)
Definition nd1 (f : R -> R) (x : res nd) : res nd := a <- x ;; Ok (npmap f a).
Definition nd2 (f : R -> R -> R) (x y : res nd) : res nd := a <- x ;; b <- y ;; nbin f a b.
Definition NDalg : alg (res nd) := {|
  a_num := fun z => Ok (scalar (IZR z));
  a_add := nd2 Rplus;
  a_mul := nd2 Rmult;
  a_inv := nd1 Rinv;
  a_fun := fun f => nd1 (a_fun Ralg f)
|}.
Definition amodel := model (V:=res nd).

(** models.py:640-656, 693-706: [model] called with keywords [d], as a dict; every
    component is passed through [np.atleast_1d] (656). *)
Definition arr_call (ord : list sym -> list sym) (m : amodel) (d : dict string nd) : res (dict sym nd) :=
  o <- call NDalg ord m [] (map (fun kv => (fst kv, Ok (snd kv))) d) ;;
  vals <- mapM (fun x => x) (mo_out o) ;;
  Ok (mo_dict {| mo_vars := mo_vars o; mo_out := map atleast_1d vals |}).

(** models.py:893-897, 939-943: [np.broadcast_to(d.get(key, 0), shape)] *)
Definition arr_entry (o : dict sym nd) (key : sym) (s : list nat) : res nd :=
  broadcast_to (match dget o key with Some a => a | None => scalar 0 end) s.

(** models.py:887-905 [eval_jacobian]: for every component the stack, over the
    parameters, of its partial derivatives, broadcast to the shape of the component. *)
Definition arr_jac (simp : expr -> expr) (ord : list sym -> list sym) (m : amodel) (d : dict string nd)
  : res (dict sym nd) :=
  jm <- jacobian_model simp ord m ;;
  o <- arr_call ord jm d ;;
  rows <- mapM (fun v =>
      c <- dlook o v ;;
      es <- mapM (fun p => arr_entry o (der_of v (sname p)) (shp c)) (m_params m) ;;
      np_stack es) (dkeys (m_dict m)) ;;
  Ok (mo_dict {| mo_vars := dkeys (m_dict m); mo_out := rows |}).

(** models.py:930-950 [eval_hessian] *)
Definition arr_hess (simp : expr -> expr) (ord : list sym -> list sym) (m : amodel) (d : dict string nd)
  : res (dict sym nd) :=
  hm <- hessian_model simp ord m ;;
  o <- arr_call ord hm d ;;
  rows <- mapM (fun v =>
      c <- dlook o v ;;
      es <- mapM (fun p1 => es1 <- mapM (fun p2 => arr_entry o (der_of (der_of v (sname p1)) (sname p2)) (shp c)) (m_params m) ;;
                            np_stack es1) (m_params m) ;;
      np_stack es) (dkeys (m_dict m)) ;;
  Ok (mo_dict {| mo_vars := dkeys (m_dict m); mo_out := rows |}).

(** The classes of symbolic models: CallableModel has no derivatives, GradientModel
    a Jacobian, Model (= HessianModel) both. *)
Inductive mclass := KCallable | KGradient | KModel.
Definition om_of (cls : mclass) (simp : expr -> expr) (ord : list sym -> list sym) (m : amodel) : omodel := {|
  om_params := m_params m;
  om_indep := m_indep m;
  om_dep := m_dep m;
  om_names := map sp_name (m_sig m);
  om_call := arr_call ord m;
  om_jac := match cls with KCallable => None | _ => Some (arr_jac simp ord m) end;
  om_hess := match cls with KModel => Some (arr_hess simp ord m) | _ => None end
|}.
