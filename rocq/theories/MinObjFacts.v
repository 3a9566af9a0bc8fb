(** * MinObjFacts: what the chain of [__init__] methods does. *)
From Coq Require Import Reals Lia.
From Verif Require Import PyBase PyFacts Signature SignatureFacts Expr NumPy Model Objective Minimizer MinObj.
Local Open Scope string_scope.
Local Open Scope list_scope.

Section Facts.
  Context {raw : Type} (wrap : list sym -> raw -> res fn).
  Notation attrs := (attrs raw).
  Notation aval := (aval raw).

  Definition same_map (d e : attrs) : Prop := forall k, dget d k = dget e k.
  Definition eqv (r1 r2 : res attrs) : Prop :=
    match r1, r2 with Ok a, Ok b => same_map a b | Raise e, Raise e' => e = e' | _, _ => False end.

  (** The derivative part: the value of the attribute and of its wrapper. *)
  Definition derivative_pair (resize : fn -> fn) (ps : list sym) (j : aval) : res (aval * aval) :=
    match j with
    | VNone => Ok (VNone, VNone)
    | _ => f <- from_callable wrap ps j ;;
           match f with VObjective f => Ok (VObjective f, VWrapped (resize f)) | _ => Raise TypeError end
    end.
  Definition cons_value (cs : aval) : aval := match cs with VNone => VCons [] | v => v end.
  (** What [_pickle_kwargs] holds *)
  Definition remembered (c : mclass) (ps : list sym) (o j s cs : aval) : attrs :=
    [("parameters", VParams ps); ("objective", o)] ++ (if is_constrained c then [("constraints", cs)] else []) ++
    (if is_gradient c then [("jacobian", j)] else []) ++ (if is_hessian c then [("hessian", s)] else []).
  (** What is written *)
  Definition written (h : heap) (c : mclass) (ps : list sym) (o f j s cs : aval) (jp sp : aval * aval) (w : list handed_con) : attrs :=
    [("parameters", VParams ps); ("_fixed_params", VParams (filter (fun p => p_fixed (h p)) ps)); ("objective", f);
     ("_pickle_kwargs", VKwargs (remembered c ps o j s cs)); ("params", VParams (filter (fun p => negb (p_fixed (h p))) ps));
     ("constraints", if is_constrained c then cons_value cs else VCons []); ("jacobian", fst jp); ("wrapped_jacobian", snd jp)] ++
    (if is_hessian c then [("hessian", fst sp); ("wrapped_hessian", snd sp)] else []) ++
    (if is_constrained c then [("wrapped_constraints", VScipyCons w)] else []).
  Definition popped (b : bool) (kw : attrs) (n : string) : aval * attrs := if b then pop kw n VNone else (VNone, kw).

  Definition closed (h : heap) (c : mclass) (self : attrs) (args : list aval) (kw : attrs) : res attrs :=
    let '(s, kw) := popped (is_hessian c) kw "hessian" in
    let '(j, kw) := popped (is_gradient c) kw "jacobian" in
    let '(cs, kw) := popped (is_constrained c) kw "constraints" in
    b <- sig_bind [pos_param "objective"; pos_param "parameters"] args kw ;;
    o <- dlook b "objective" ;;
    p <- dlook b "parameters" ;;
    match p with
    | VParams ps =>
        let fixed := filter (fun p => p_fixed (h p)) ps in
        f <- from_callable wrap ps o ;;
        jp <- derivative_pair (self_resize_jac (Concrete c) fixed ps) ps j ;;
        sp <- derivative_pair (resize_hess fixed ps) ps s ;;
        w <- (if is_constrained c then match cons_value cs with VCons l => self_scipy_constraints (Concrete c) fixed ps l | _ => Raise TypeError end else Ok []) ;;
        Ok (dupdate self (written h c ps o f j s cs jp sp w))
    | _ => Raise TypeError
    end.

  Lemma written_nodup h c ps o f j s cs jp sp w : NoDup (dkeys (written h c ps o f j s cs jp sp w)).
  Proof. destruct c; apply nodupb_iff; reflexivity. Qed.

  Ltac look := repeat (rewrite dget_dset_eq || (rewrite dget_dset_ne by discriminate)).
  Ltac gets := unfold getattr, params_attr, remember; look; cbn [of_opt bind]; look.
  Ltac finish := intros k; rewrite dget_dupdate_nodup by apply written_nodup; unfold written, remembered; cbn -[dget_dset];
    rewrite ?dget_dset;
    repeat match goal with |- context [eq_dec k ?s] => destruct (eq_dec k s) as [->|?]; [reflexivity|] end; try reflexivity.
  Ltac classlist := match goal with |- context [mro ?X] => let l := eval vm_compute in (mro X) in change (mro X) with l end.

  Lemma from_callable_value ps v f : from_callable wrap ps v = Ok f -> exists g, f = VObjective g.
  Proof. destruct v; cbn; try discriminate; [destruct (wrap ps f0); cbn; try discriminate|]; intros H; injection H as <-; eauto. Qed.

  Lemma dset_same (d : attrs) k v : dget d k = Some v -> dset d k v = d.
  Proof.
    induction d as [|[k' v'] d IH]; cbn [dget dset]; [discriminate|]. destruct (eq_dec k k') as [->|Hn].
    - intros H. injection H as ->. reflexivity.
    - intros H. rewrite (IH H). reflexivity.
  Qed.
  Lemma remember_eq (self : attrs) n v (d : attrs) : dget self "_pickle_kwargs" = Some (VKwargs d) -> remember self n v = Ok (dset self "_pickle_kwargs" (VKwargs (dset d n v))).
  Proof. intros H. unfold remember, getattr. rewrite H. reflexivity. Qed.
  Lemma params_eq (self : attrs) n ps : dget self n = Some (VParams ps) -> params_attr self n = Ok ps.
  Proof. intros H. unfold params_attr, getattr. rewrite H. reflexivity. Qed.
  Lemma after_eq (self : attrs) n w resize (j : aval) (d : attrs) ps fixed :
    n <> "_pickle_kwargs" -> dget self n = Some j -> dget self "_pickle_kwargs" = Some (VKwargs d) ->
    dget self "parameters" = Some (VParams ps) -> dget self "_fixed_params" = Some (VParams fixed) ->
    after_derivative wrap self n w resize =
      (jp <- derivative_pair (resize fixed ps) ps j ;;
       Ok (dset (dset (dset self "_pickle_kwargs" (VKwargs (dset d n j))) n (fst jp)) w (snd jp))).
  Proof.
    intros Hn Hj Hk Hp Hf. unfold after_derivative, getattr. rewrite Hj. cbn [of_opt bind]. rewrite (remember_eq _ _ _ _ Hk). cbn [bind].
    assert (E1 : params_attr (dset self "_pickle_kwargs" (VKwargs (dset d n j))) "parameters" = Ok ps) by (apply params_eq; rewrite dget_dset_ne by discriminate; exact Hp).
    assert (E2 : params_attr (dset self "_pickle_kwargs" (VKwargs (dset d n j))) "_fixed_params" = Ok fixed) by (apply params_eq; rewrite dget_dset_ne by discriminate; exact Hf).
    rewrite E1, E2. cbn [bind]. unfold derivative_pair.
    destruct j; cbn [bind]; try reflexivity.
    - cbn [fst snd]. rewrite (dset_same (dset self "_pickle_kwargs" _) n VNone); [reflexivity|]. rewrite dget_dset_ne by exact Hn. exact Hj.
    - destruct (from_callable wrap ps (VFun f)) as [[]|]; reflexivity.
  Qed.

  Lemma derivative_none r ps : derivative_pair r ps VNone = Ok (VNone, VNone).
  Proof. reflexivity. Qed.
  Lemma init_closed make h c self args kw : c <> BasinHopping ->
    eqv (init_chain wrap make h (Concrete c) (mro (Concrete c)) self args kw) (closed h c self args kw).
  Proof.
    intros Hc. destruct c; try congruence; classlist; unfold closed, popped; cbn [init_chain pop]; unfold base_init, is_gradient, is_hessian, is_constrained;
      cbn [issubclass bases existsb same_base orb pop];
      match goal with |- context [sig_bind ?S ?A ?K] => destruct (sig_bind S A K) as [b|e] end; cbn [bind]; try reflexivity;
      (destruct (dlook b "objective") as [o|e]; cbn [bind]; try reflexivity);
      (destruct (dlook b "parameters") as [p|e]; cbn [bind]; try reflexivity);
      destruct p; try reflexivity;
      (destruct (from_callable wrap l o) as [f|e]; cbn [bind]; try reflexivity).
    all: repeat match goal with |- context [match dget ?d ?n with Some _ => _ | None => _ end] => generalize (match dget d n with Some v => v | None => VNone end); intros ? end.
    all: repeat (first
      [ erewrite remember_eq by (look; reflexivity)
      | rewrite derivative_none
      | erewrite after_eq by (try discriminate; look; reflexivity)
      | match goal with |- context [derivative_pair ?r ?p ?v] => destruct (derivative_pair r p v) as [[? ?]|] end
      ]; cbn [bind dset fst snd]; try reflexivity).
    all: unfold getattr; look; cbn [of_opt bind]; try (erewrite !params_eq by (look; reflexivity); cbn [bind]).
    all: try match goal with |- context [match ?a with VNone => VCons [] | _ => _ end] => change (match a with VNone => VCons [] | v => v end) with (cons_value a); destruct (cons_value a) eqn:Ecv; cbn [bind]; try reflexivity end.
    all: try match goal with |- context [self_scipy_constraints ?c ?f ?p ?l] => destruct (self_scipy_constraints c f p l) as [w|]; cbn [bind]; try reflexivity end.
    all: intros k; rewrite dget_dupdate_nodup by apply written_nodup; unfold written, remembered, is_gradient, is_hessian, is_constrained; cbn [issubclass bases existsb same_base orb app fst snd].
    all: try rewrite Ecv.
    all: rewrite !dget_dset; cbn [dget].
    all: repeat match goal with |- context [eq_dec ?x ?s] => is_var x; destruct (eq_dec x s) as [->|?]; [reflexivity|] end; reflexivity.
  Qed.

  (** BasinHopping after its own [__init__] has called [super().__init__] *)
  Lemma basin_tail make h self args kw :
    eqv (init_chain wrap make h (Concrete BasinHopping) [ScipyMinimize; GlobalMinimizer; BaseMinimizer] self args kw) (closed h BasinHopping self args kw).
  Proof.
    unfold closed, popped; cbn [init_chain]; unfold base_init, is_gradient, is_hessian, is_constrained;
      cbn [issubclass bases existsb same_base orb pop];
      match goal with |- context [sig_bind ?S ?A ?K] => destruct (sig_bind S A K) as [b|e] end; cbn [bind]; try reflexivity;
      (destruct (dlook b "objective") as [o|e]; cbn [bind]; try reflexivity);
      (destruct (dlook b "parameters") as [p|e]; cbn [bind]; try reflexivity);
      destruct p; try reflexivity;
      (destruct (from_callable wrap l o) as [f|e]; cbn [bind]; try reflexivity). rewrite !derivative_none. cbn [bind fst snd].
    intros k; rewrite dget_dupdate_nodup by apply written_nodup; unfold written, remembered, is_gradient, is_hessian, is_constrained; cbn [issubclass bases existsb same_base orb app fst snd].
    rewrite !dget_dset; cbn [dget].
    repeat match goal with |- context [eq_dec ?x ?s] => is_var x; destruct (eq_dec x s) as [->|?]; [reflexivity|] end; reflexivity.
  Qed.
End Facts.
