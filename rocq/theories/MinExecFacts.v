(** * MinExecFacts: the calls of scipy. *)
From Coq Require Import Reals Lia.
From Verif Require Import PyBase PyFacts Signature SignatureFacts Expr NumPy Model Objective Minimizer MinSpec MinLemmas MinObj MinObjSpec MinObjFacts MinObjMain MinExec MinExecSpec.
Local Open Scope string_scope.
Local Open Scope list_scope.

Section Facts.
  Context {raw U : Type}.
  Notation options := (options U).
  Notation store := (store U).
  Notation scall := (scall raw U).
  Notation object := (object raw).
  Notation attrs := (attrs raw).
  Implicit Types (kw d : options) (st : store) (self : attrs) (o : object).

  Lemma dmem_dget kw n : dmem kw n = match dget kw n with Some _ => true | None => false end.
  Proof using. destruct (dmem kw n) eqn:E, (dget kw n) eqn:E2; try reflexivity. - apply dmem_keys in E. apply dget_None in E2. contradiction. - apply dmem_false in E. apply dget_Some_key in E2. contradiction. Qed.

  Lemma also_ok kw n v : dget kw n = None -> also kw n v = Ok ((n, v) :: kw).
  Proof using. intros H. unfold also. rewrite dmem_dget, H. reflexivity. Qed.
  Lemma also_bad kw n v : dget kw n <> None -> also kw n v = Raise TypeError.
  Proof using. intros H. unfold also. rewrite dmem_dget. destruct (dget kw n); [reflexivity|congruence]. Qed.
  Lemma not_again_ok kw l : (forall n, In n l -> dget kw n = None) -> not_again kw l = Ok tt.
  Proof using.
    intros H. unfold not_again. replace (existsb (dmem kw) l) with false; [reflexivity|]. symmetry. apply Bool.not_true_is_false. intros E. apply existsb_exists in E as (n & Hn & E). rewrite dmem_dget, (H n Hn) in E. discriminate.
  Qed.
  Lemma not_again_bad kw l n : In n l -> dget kw n <> None -> not_again kw l = Raise TypeError.
  Proof using.
    intros Hn H. unfold not_again. replace (existsb (dmem kw) l) with true; [reflexivity|]. symmetry. apply existsb_exists. exists n. split; [exact Hn|]. rewrite dmem_dget. destruct (dget kw n); [reflexivity|congruence].
  Qed.

  (** the attributes [problem_of] reads *)
  Record fit_for (h : heap) (c : mclass) (self : attrs) (pb : problem) : Prop := {
    ff_params : exists ps, params_attr self "params" = Ok ps /\ (is_bounded c = true -> pb_lower pb = Some (map (fun p => p_min (h p)) ps) /\ pb_upper pb = Some (map (fun p => p_max (h p)) ps)) /\
                  (is_bounded c = false -> pb_lower pb = None /\ pb_upper pb = None);
    ff_guess : exists x0, guesses h self = Ok x0 /\ (c <> DifferentialEvolution -> pb_x0 pb = Some x0);
    ff_cons : is_constrained c = true -> handed_attr self = Ok (pb_cons pb);
    ff_routine : pb_routine pb = routine_of c }.
  Lemma problem_parts h c self uj uh pb : problem_of h (Obj (Concrete c) self) uj uh = Ok pb -> fit_for h c self pb.
  Proof using.
    unfold problem_of. destruct (params_attr self "params") as [ps|] eqn:Ep; [|discriminate]. cbn [bind]. destruct (guesses h self) as [x0|] eqn:Eg; [|discriminate]. cbn [bind].
    match goal with |- context [bind ?X _] => destruct X as [w|] eqn:Ec; [|discriminate] end. cbn [bind]. intros H.
    assert (HA : exists j s x, pb = {| pb_routine := routine_of c; pb_x0 := x; pb_lower := if is_bounded c then Some (map (fun p => p_min (h p)) ps) else None;
       pb_upper := if is_bounded c then Some (map (fun p => p_max (h p)) ps) else None; pb_jac := j; pb_hess := s; pb_cons := w |} /\ (c <> DifferentialEvolution -> x = Some x0)).
    { destruct c; repeat match type of H with bind ?X _ = _ => destruct X as [?|]; [|discriminate]; cbn [bind] in H end; try (injection H as <-; eexists _, _, _; split; [reflexivity|]; congruence).
      match type of H with (let (_, _) := ?x in _) = _ => destruct x as [aj ah] end. repeat match type of H with bind ?X _ = _ => destruct X as [?|]; [|discriminate]; cbn [bind] in H end. injection H as <-; eexists _, _, _; split; [reflexivity|]; congruence. }
    destruct HA as (j & s & x & -> & Hx). split; cbn [pb_lower pb_upper pb_x0 pb_cons pb_routine].
    - exists ps. split; [exact Ep|]. destruct (is_bounded c); split; intros; try discriminate; auto.
    - exists x0. split; [exact Eg|exact Hx].
    - intros E. rewrite E in Ec. exact Ec.
    - reflexivity.
  Qed.

  Definition passed_by : list string := ["fun"; "x0"; "method"; "jac"; "hess"].
  Definition scipy_keywords (c : mclass) (kw : options) (n : string) : option (opt U) :=
    if eqb n "method" then Some (OText (method_name c))
    else if eqb n "bounds" then Some (given kw "bounds")
    else if eqb n "constraints" then Some (given kw "constraints")
    else if eqb n "jac" then Some (given kw "jacobian")
    else if eqb n "hess" then Some (given kw "hessian")
    else if eqb n "tol" then Some (default kw "tol" (ONumber (/ 1000000000)))
    else if eqb n "jacobian" || eqb n "hessian" then None
    else dget kw n.
  Ltac keys := repeat match goal with |- context [eq_dec ?a ?b] => first [is_var a; destruct (eq_dec a b) as [->|?] | let e := fresh in destruct (eq_dec a b) as [e|?]; [discriminate e|]] end.
  Ltac keysn := unfold eqb; repeat match goal with |- context [eq_dec ?a ?b] => (is_var a; destruct (eq_dec a b) as [->|?]) || (is_var b; destruct (eq_dec a b) as [<-|?]) || (let e := fresh in destruct (eq_dec a b) as [e|?]; [discriminate e|]) || (destruct (eq_dec a b) as [_|]; [|congruence]) end.

  Lemma tail_bad h c self rest st kw n f x0 : getattr self "objective" = Ok f -> guesses h self = Ok x0 -> In n passed_by -> dget kw n <> None ->
    exec_chain h (Concrete c) self (ScipyMinimize :: rest) st kw = Raise TypeError.
  Proof using.
    intros Hf Hx Hn H. cbn [exec_chain take]. rewrite Hf, Hx. cbn [bind].
    match goal with |- context [not_again ?k _] => assert (Hk : dget k n = dget kw n) end.
    { rewrite dget_dset, !dget_ddel. destruct Hn as [<-|[<-|[<-|[<-|[<-|[]]]]]]; keysn; reflexivity. }
    match goal with |- context [not_again ?k _] => set (k0 := k) in *; clearbody k0 end.
    destruct Hn as [<-|[<-|Hn]]; [rewrite (not_again_bad k0 _ "fun") by (first [rewrite Hk; exact H | cbn; tauto]); reflexivity|rewrite (not_again_bad k0 _ "x0") by (first [rewrite Hk; exact H | cbn; tauto]); reflexivity|].
    destruct (not_again k0 ["fun"; "x0"]) as [[]|e] eqn:E; [|unfold not_again in E; destruct (existsb _ _); [|discriminate]; injection E as <-; reflexivity]. cbn [bind].
    destruct Hn as [<-|Hn]; [rewrite also_bad by (rewrite Hk; exact H); reflexivity|].
    unfold also at 1. destruct (dmem k0 "method"); [reflexivity|]. cbn [bind].
    unfold also at 1. destruct (dmem _ "bounds"); [reflexivity|]. cbn [bind].
    unfold also at 1. destruct (dmem _ "constraints"); [reflexivity|]. cbn [bind].
    destruct Hn as [<-|Hn]; [rewrite also_bad; [reflexivity|]; cbn [dget]; keysn; rewrite Hk; exact H|].
    unfold also at 1. destruct (dmem _ "jac"); [reflexivity|]. cbn [bind].
    destruct Hn as [<-|[]]. rewrite also_bad; [reflexivity|]. cbn [dget]; keysn; rewrite Hk; exact H.
  Qed.
  Lemma tail_ok h c self rest st kw f x0 : getattr self "objective" = Ok f -> guesses h self = Ok x0 -> (forall n, In n passed_by -> dget kw n = None) ->
    exists k, exec_chain h (Concrete c) self (ScipyMinimize :: rest) st kw = Ok (st, {| ca_function := SMinimize; ca_objective := f; ca_x0 := Some x0; ca_kw := k |}) /\
      forall n, dget k n = scipy_keywords c kw n.
  Proof using.
    intros Hf Hx H. cbn [exec_chain take]. rewrite Hf, Hx. cbn [bind].
    pose proof (H "fun" ltac:(cbn; auto)) as H1. pose proof (H "x0" ltac:(cbn; auto)) as H2. pose proof (H "method" ltac:(cbn; auto)) as H3. pose proof (H "jac" ltac:(cbn; auto)) as H4. pose proof (H "hess" ltac:(cbn; tauto)) as H5. clear H.
    rewrite not_again_ok. 2:{ intros n [<-|[<-|[]]]; rewrite dget_dset, !dget_ddel; keysn; assumption. }
    cbn [bind].
    repeat (rewrite also_ok; [|cbn [dget]; rewrite ?dget_dset, ?dget_ddel; keysn; (assumption || reflexivity)]; cbn [bind]).
    eexists. split; [reflexivity|]. intros n. unfold scipy_keywords, given, default. cbn [dget]. rewrite dget_dset, !dget_ddel. keysn; reflexivity.
  Qed.

  (** the layers *)
  Lemma layer_gradient h cls self rest st kw w : derivative_opt self "wrapped_jacobian" = Ok w ->
    exec_chain h cls self (ScipyGradientMinimize :: rest) st kw = exec_chain h cls self rest st (("jacobian", preferred (given kw "jacobian") w) :: ddel kw "jacobian").
  Proof using.
    intros Hw. cbn [exec_chain take]. rewrite Hw. cbn [bind]. rewrite also_ok by (rewrite dget_ddel; keysn; reflexivity). cbn [bind].
    unfold if_none, preferred. fold (given kw "jacobian"). destruct (given kw "jacobian"); reflexivity.
  Qed.
  Lemma layer_hessian h cls self rest st kw w : derivative_opt self "wrapped_hessian" = Ok w ->
    exec_chain h cls self (ScipyHessianMinimize :: rest) st kw = exec_chain h cls self rest st (("hessian", preferred (given kw "hessian") w) :: ddel kw "hessian").
  Proof using.
    intros Hw. cbn [exec_chain take]. rewrite Hw. cbn [bind]. rewrite also_ok by (rewrite dget_ddel; keysn; reflexivity). cbn [bind].
    unfold if_none, preferred. fold (given kw "hessian"). destruct (given kw "hessian"); reflexivity.
  Qed.
  Lemma layer_bounds h cls self rest st kw b : bounds_opt h cls self = Ok b ->
    exec_chain h cls self (ScipyBoundedMinimizer :: rest) st kw = if dmem kw "bounds" then Raise TypeError else exec_chain h cls self rest st (("bounds", b) :: kw).
  Proof using. intros Hb. cbn [exec_chain]. rewrite Hb. cbn [bind]. unfold also. destruct (dmem kw "bounds"); reflexivity. Qed.
  Lemma layer_cons h cls self rest st kw w : handed_attr self = Ok w ->
    exec_chain h cls self (ScipyConstrainedMinimize :: rest) st kw = if dmem kw "constraints" then Raise TypeError else exec_chain h cls self rest st (("constraints", OCons w) :: kw).
  Proof using. intros Hb. cbn [exec_chain]. rewrite Hb. cbn [bind]. unfold also. destruct (dmem kw "constraints"); reflexivity. Qed.

  Lemma opt_of_attr self n j : derivative_attr self n = Ok j -> derivative_opt (U:=U) self n = Ok (derivative j).
  Proof using. unfold derivative_attr, derivative_opt. destruct (getattr self n) as [v|]; [|discriminate]. cbn [bind]. destruct v; try discriminate; intros H; injection H as <-; reflexivity. Qed.

  (** how the keywords come to [minimize] *)
  Lemma calls_minimize h c self rest st kw kw' f x0 (P : string -> option (opt U)) : getattr self "objective" = Ok f -> guesses h self = Ok x0 ->
    (forall n, In n passed_by -> dget kw' n = dget kw n) -> (forall n, (forall n0, In n0 passed_by -> dget kw n0 = None) -> scipy_keywords c kw' n = P n) ->
    (exists n, In n passed_by /\ dget kw n <> None) /\ exec_chain h (Concrete c) self (ScipyMinimize :: rest) st kw' = Raise TypeError \/
    (forall n, In n passed_by -> dget kw n = None) /\
      exists k, exec_chain h (Concrete c) self (ScipyMinimize :: rest) st kw' = Ok (st, {| ca_function := SMinimize; ca_objective := f; ca_x0 := Some x0; ca_kw := k |}) /\ forall n, dget k n = P n.
  Proof using.
    intros Hf Hx Hk HP.
    destruct (existsb (dmem kw) passed_by) eqn:E.
    - left. apply existsb_exists in E as (n & Hn & E). rewrite dmem_dget in E. assert (Hd : dget kw n <> None) by (destruct (dget kw n); [discriminate|discriminate E]). split; [exists n; auto|].
      eapply tail_bad; [exact Hf|exact Hx|exact Hn|]. rewrite (Hk n Hn). exact Hd.
    - right. assert (Hno : forall n, In n passed_by -> dget kw n = None).
      { intros n Hn. destruct (dget kw n) eqn:Ed; [|reflexivity]. exfalso. assert (existsb (dmem kw) passed_by = true); [|congruence]. apply existsb_exists. exists n. split; [exact Hn|]. rewrite dmem_dget, Ed. reflexivity. }
      split; [exact Hno|]. destruct (tail_ok h c self rest st kw' f x0 Hf Hx) as (k & Hc & Ht); [intros n Hn; rewrite (Hk n Hn); apply Hno; exact Hn|].
      exists k. split; [exact Hc|]. intros n. rewrite Ht. apply HP. exact Hno.
  Qed.
End Facts.
