(** * MinObjMain: pickling minimizers. *)
From Coq Require Import Reals Lia.
From Verif Require Import PyBase PyFacts Signature SignatureFacts Expr NumPy Model Objective Minimizer MinObj MinObjSpec MinObjFacts.
Local Open Scope string_scope.
Local Open Scope list_scope.

Definition flag_heap (F : sym -> bool) : heap := fun p => {| p_value := 0; p_min := None; p_max := None; p_fixed := F p |}.

Section Main.
  Context {raw : Type} (wrap : list sym -> raw -> res fn) (F : sym -> bool).
  Notation attrs := (attrs raw).
  Notation aval := (aval raw).
  Notation object := (object raw).
  Notation hF := (flag_heap F).

  (** ** Only the [fixed] attributes matter for [__init__] *)
  Lemma init_flags make make' h cls rest : fixes h F -> (forall c args kw, make c args kw = make' c args kw) ->
    forall self args kw, init_chain wrap make h cls rest self args kw = init_chain wrap make' hF cls rest self args kw.
  Proof using.
    intros Hh Hm. induction rest as [|c rest IH]; intros self args kw; [reflexivity|].
    destruct c; cbn [init_chain pop]; try (rewrite ?IH; reflexivity).
    - unfold base_init. destruct (sig_bind _ args kw) as [b|]; [|reflexivity]. cbn [bind]. destruct (dlook b "objective") as [o|]; [|reflexivity]. cbn [bind].
      destruct (dlook b "parameters") as [p|]; [|reflexivity]. cbn [bind]. destruct p; try reflexivity.
      rewrite (filter_ext (fun p => p_fixed (h p)) (fun p => p_fixed (hF p)) Hh l).
      rewrite (filter_ext (fun p => negb (p_fixed (h p))) (fun p => negb (p_fixed (hF p)))); [reflexivity|]. intros p. rewrite Hh. reflexivity.
    - destruct c; rewrite ?IH; try reflexivity. destruct (init_chain wrap make' hF cls rest _ args _) as [d|]; [|reflexivity]. cbn [bind].
      destruct (remember d "local_minimizer" _) as [d'|]; [|reflexivity]. cbn [bind]. destruct (match dget kw "local_minimizer" with Some v => v | None => _ end); try reflexivity.
      destruct (inb ScipyMinimize (mro (Concrete c))); [|reflexivity]. destruct (getattr d' "objective") as [o|]; [|reflexivity]. cbn [bind]. destruct (getattr d' "parameters") as [p|]; [|reflexivity]. cbn [bind].
      rewrite Hm. reflexivity.
  Qed.
  Lemma make_flags n h : fixes h F -> forall c args kw, make_object wrap n h c args kw = make_object wrap n hF c args kw.
  Proof using.
    intros Hh. induction n as [|n IH]; intros c args kw; [reflexivity|]. cbn [make_object].
    rewrite (init_flags _ (fun c => make_object wrap n hF (Concrete c)) h c (mro c) Hh); [reflexivity|]. intros. apply IH.
  Qed.
  Lemma setstate_flags h c st : fixes h F -> setstate wrap h c st = setstate wrap hF c st.
  Proof using.
    intros Hh. unfold setstate. destruct (getattr _ "_pickle_kwargs") as [v|]; [|reflexivity]. cbn [bind]. destruct v; try reflexivity.
    rewrite (init_flags _ (fun c => make_object wrap 2 hF (Concrete c)) h c (mro c) Hh); [reflexivity|]. intros. apply make_flags. exact Hh.
  Qed.
  (** ** More fuel does not change a success *)
  Lemma init_more make make' h cls rest : (forall c args kw o, make c args kw = Ok o -> make' c args kw = Ok o) ->
    forall self args kw d, init_chain wrap make h cls rest self args kw = Ok d -> init_chain wrap make' h cls rest self args kw = Ok d.
  Proof using.
    intros Hm. induction rest as [|c rest IH]; intros self args kw d; [auto|].
    destruct c; cbn [init_chain pop]; try (apply IH); auto;
      try (match goal with |- context [init_chain wrap make h cls rest ?a ?b ?c] => destruct (init_chain wrap make h cls rest a b c) as [d0|] eqn:E; [|discriminate]; rewrite (IH _ _ _ _ E); auto end).
    destruct c; try (apply IH).
    destruct (init_chain wrap make h cls rest _ args _) as [d0|] eqn:E; [|discriminate]. rewrite (IH _ _ _ _ E). cbn [bind].
    destruct (remember d0 "local_minimizer" _) as [d'|]; [|discriminate]. cbn [bind]. destruct (match dget kw "local_minimizer" with Some v => v | None => _ end); auto.
    destruct (inb ScipyMinimize (mro (Concrete c))); [|auto]. destruct (getattr d' "objective") as [o|]; [|auto]. cbn [bind]. destruct (getattr d' "parameters") as [p|]; [|auto]. cbn [bind].
    destruct (make c [o; p] []) as [m|] eqn:Em; [|discriminate]. rewrite (Hm _ _ _ _ Em). auto.
  Qed.
  Lemma make_more n n' h : (n <= n')%nat -> forall c args kw o, make_object wrap n h c args kw = Ok o -> make_object wrap n' h c args kw = Ok o.
  Proof using.
    revert n'. induction n as [|n IH]; intros n' Hn c args kw o; [discriminate|]. destruct n' as [|n']; [lia|]. cbn [make_object].
    destruct (init_chain wrap _ h c (mro c) [] args kw) as [d|] eqn:E; [|discriminate]. intros Ho.
    rewrite (init_more _ (fun c0 => make_object wrap n' h (Concrete c0)) h c (mro c) (fun c0 a0 k0 o0 => IH n' ltac:(lia) (Concrete c0) a0 k0 o0) _ _ _ _ E). exact Ho.
  Qed.
  Lemma init_nodup make h cls rest : forall self args kw d, NoDup (dkeys self) -> init_chain wrap make h cls rest self args kw = Ok d -> NoDup (dkeys d).
  Proof using.
    assert (Hrem : forall (self : attrs) n v d, NoDup (dkeys self) -> remember self n v = Ok d -> NoDup (dkeys d)).
    { intros self n v d Hn. unfold remember. destruct (getattr self "_pickle_kwargs") as [k|]; [|discriminate]. cbn [bind]. destruct k; try discriminate. intros H. injection H as <-. apply NoDup_dset. exact Hn. }
    assert (Haft : forall (self : attrs) n w r d, NoDup (dkeys self) -> after_derivative wrap self n w r = Ok d -> NoDup (dkeys d)).
    { intros self n w r d Hn. unfold after_derivative. destruct (getattr self n) as [j|]; [|discriminate]. cbn [bind]. destruct (remember self n j) as [d1|] eqn:E1; [|discriminate]. cbn [bind].
      assert (Hn1 := Hrem _ _ _ _ Hn E1).
      assert (Hg : forall v, (ps <- params_attr d1 "parameters" ;; fixed <- params_attr d1 "_fixed_params" ;; f <- from_callable wrap ps v ;;
         match f with VObjective f => Ok (dset (dset d1 n (VObjective f)) w (VWrapped (r fixed ps f))) | _ => Raise TypeError end) = Ok d -> NoDup (dkeys d)).
      { intros v. destruct (params_attr d1 "parameters"); [|discriminate]. cbn [bind]. destruct (params_attr d1 "_fixed_params"); [|discriminate]. cbn [bind]. destruct (from_callable wrap _ v) as [f|]; [|discriminate]. cbn [bind].
        destruct f; try discriminate. intros H. injection H as <-. apply NoDup_dset, NoDup_dset. exact Hn1. }
      destruct j; try (apply Hg). intros H. injection H as <-. apply NoDup_dset. exact Hn1. }
    induction rest as [|c rest IH]; intros self args kw d Hn; [destruct args, kw; intros H; try discriminate; injection H as <-; exact Hn|].
    assert (Hsub : forall self' kw' (k : attrs -> res attrs), NoDup (dkeys self') -> (forall d1, NoDup (dkeys d1) -> k d1 = Ok d -> NoDup (dkeys d)) -> (x <- init_chain wrap make h cls rest self' args kw' ;; k x) = Ok d -> NoDup (dkeys d)).
    { intros self' kw' k Hs Hk. destruct (init_chain wrap make h cls rest self' args kw') as [d1|] eqn:E; [|discriminate]. apply Hk. exact (IH _ _ _ _ Hs E). }
    destruct c; cbn [init_chain pop]; try (apply IH; exact Hn).
    - unfold base_init. destruct (sig_bind _ args kw) as [b|]; [|discriminate]. cbn [bind]. destruct (dlook b "objective"); [|discriminate]. cbn [bind]. destruct (dlook b "parameters") as [p|]; [|discriminate]. cbn [bind].
      destruct p; try discriminate. destruct (from_callable wrap l _); [|discriminate]. cbn [bind]. intros H. injection H as <-. repeat apply NoDup_dset. exact Hn.
    - apply Hsub; [exact Hn|]. intros d1 H1. destruct (remember d1 _ _) as [d2|] eqn:E2; [|discriminate]. cbn [bind]. intros H. injection H as <-. apply NoDup_dset. exact (Hrem _ _ _ _ H1 E2).
    - apply Hsub; [apply NoDup_dset; exact Hn|]. intros d1 H1. apply Haft. exact H1.
    - apply Hsub; [apply NoDup_dset; exact Hn|]. intros d1 H1. apply Haft. exact H1.
    - apply Hsub; [exact Hn|]. intros d1 H1. destruct (remember _ _ _) as [d2|] eqn:E2; [|discriminate]. cbn [bind]. apply Hrem in E2; [|apply NoDup_dset; exact H1].
      destruct (match dget kw "minimizers" with Some v => v | None => _ end); try discriminate. destruct (chain_signature _); [|discriminate]. cbn [bind]. intros H. injection H as <-. apply NoDup_dset. exact E2.
    - apply IH. repeat apply NoDup_dset. exact Hn.
    - apply Hsub; [exact Hn|]. intros d1 H1. destruct (getattr d1 "constraints") as [cs|]; [|discriminate]. cbn [bind]. destruct (params_attr d1 "parameters"); [|discriminate]. cbn [bind]. destruct (params_attr d1 "_fixed_params"); [|discriminate]. cbn [bind].
      destruct cs; try discriminate. destruct (self_scipy_constraints _ _ _ _); [|discriminate]. cbn [bind]. intros H. injection H as <-. apply NoDup_dset. exact H1.
    - destruct c; try (apply IH; exact Hn). apply Hsub; [apply NoDup_dset; exact Hn|]. intros d1 H1. destruct (remember d1 _ _) as [d2|] eqn:E2; [|discriminate]. cbn [bind]. apply Hrem in E2; [|exact H1].
      destruct (match dget kw "local_minimizer" with Some v => v | None => _ end); try discriminate.
      + destruct (inb _ _); [|discriminate]. destruct (getattr d2 "objective"); [|discriminate]. cbn [bind]. destruct (getattr d2 "parameters"); [|discriminate]. cbn [bind]. destruct (make c _ _); [|discriminate]. cbn [bind].
        intros H. injection H as <-. apply NoDup_dset. exact E2.
      + destruct (inb _ _); [|discriminate]. intros H. injection H as <-. exact E2.
  Qed.

  (** ** What the attributes of an object are *)
  Record simple_ok (c : mclass) (ps : list sym) (o : aval) (f : fn) (j s cs : aval) (jp sp : aval * aval) (w : list handed_con) : Prop := {
    so_obj : from_callable wrap ps o = Ok (VObjective f);
    so_jac : derivative_pair wrap (self_resize_jac (Concrete c) (filter (fun p => p_fixed (hF p)) ps) ps) ps j = Ok jp;
    so_hess : derivative_pair wrap (resize_hess (filter (fun p => p_fixed (hF p)) ps) ps) ps s = Ok sp;
    so_cons : (if is_constrained c then match cons_value cs with VCons l => self_scipy_constraints (Concrete c) (filter (fun p => p_fixed (hF p)) ps) ps l | _ => Raise TypeError end else Ok []) = Ok w;
    so_nojac : is_gradient c = false -> j = VNone;
    so_nohess : is_hessian c = false -> s = VNone;
    so_nocons : is_constrained c = false -> cs = VNone }.
  Definition guess_part (g : option (list R)) : attrs := match g with Some g => [("_initial_guesses", VVector g)] | None => [] end.

  Definition option_value (b : bool) (kw : attrs) (n : string) : aval := if b then match dget kw n with Some v => v | None => VNone end else VNone.
  Definition rest_kw (c : mclass) (kw : attrs) : attrs :=
    let kw := if is_hessian c then ddel kw "hessian" else kw in
    let kw := if is_gradient c then ddel kw "jacobian" else kw in
    if is_constrained c then ddel kw "constraints" else kw.
  Lemma closed_inv c self args kw d : closed wrap hF c self args kw = Ok d ->
    exists b o ps f jp sp w, sig_bind [pos_param "objective"; pos_param "parameters"] args (rest_kw c kw) = Ok b /\ dget b "objective" = Some o /\ dget b "parameters" = Some (VParams ps) /\
      simple_ok c ps o f (option_value (is_gradient c) kw "jacobian") (option_value (is_hessian c) kw "hessian") (option_value (is_constrained c) kw "constraints") jp sp w /\
      d = dupdate self (written hF c ps o (VObjective f) (option_value (is_gradient c) kw "jacobian") (option_value (is_hessian c) kw "hessian") (option_value (is_constrained c) kw "constraints") jp sp w).
  Proof using.
    assert (E1 : (let '(s, kw) := popped (is_hessian c) kw "hessian" in let '(j, kw) := popped (is_gradient c) kw "jacobian" in popped (is_constrained c) kw "constraints") =
       (option_value (is_constrained c) kw "constraints", rest_kw c kw)).
    { unfold popped, pop, rest_kw, option_value. destruct (is_hessian c), (is_gradient c), (is_constrained c); rewrite ?dget_ddel; reflexivity. }
    unfold closed. destruct (popped (is_hessian c) kw "hessian") as [s kw1] eqn:Es. destruct (popped (is_gradient c) kw1 "jacobian") as [j kw2] eqn:Ej. rewrite E1.
    assert (Hs : s = option_value (is_hessian c) kw "hessian") by (unfold popped, pop, option_value in *; destruct (is_hessian c); congruence).
    assert (Hj : j = option_value (is_gradient c) kw "jacobian").
    { unfold popped, pop, option_value in *. destruct (is_gradient c); [|congruence]. injection Ej as <- _. destruct (is_hessian c); injection Es as _ <-; rewrite ?dget_ddel; reflexivity. }
    rewrite <- Hs, <- Hj. clear Es Ej E1. generalize (rest_kw c kw); intros kw3.
    destruct (sig_bind _ args kw3) as [b|]; [|discriminate]. cbn [bind]. unfold dlook. destruct (dget b "objective") as [o|] eqn:Eo; [|discriminate]. cbn [bind of_opt]. destruct (dget b "parameters") as [p|] eqn:Ep; [|discriminate]. cbn [bind of_opt].
    destruct p as [| | |ps| | | | | | | | |]; try discriminate. destruct (from_callable wrap ps o) as [f|] eqn:Ef; [|discriminate]. cbn [bind]. destruct (from_callable_value wrap _ _ _ Ef) as (g & ->).
    destruct (derivative_pair wrap _ ps j) as [jp|] eqn:E1; [|discriminate]. cbn [bind]. destruct (derivative_pair wrap _ ps s) as [sp|] eqn:E2; [|discriminate]. cbn [bind].
    match goal with |- context [bind ?X _] => destruct X as [w|] eqn:E3; [|discriminate] end. cbn [bind]. intros H. injection H as <-.
    exists b, o, ps, g, jp, sp, w. split; [reflexivity|]. split; [exact Eo|]. split; [exact Ep|]. split; [|reflexivity].
    split; try assumption; unfold option_value in *; intros Hc; rewrite Hc in *; auto.
  Qed.
  Lemma closed_remembered c self ps o f j s cs jp sp w : simple_ok c ps o f j s cs jp sp w ->
    closed wrap hF c self [] (remembered c ps o j s cs) = Ok (dupdate self (written hF c ps o (VObjective f) j s cs jp sp w)).
  Proof using.
    intros [H1 H2 H3 H4 N1 N2 N3]. unfold closed, popped, remembered.
    destruct c; revert H2 H3 H4 N1 N2 N3; unfold is_gradient, is_hessian, is_constrained; cbn [issubclass bases existsb same_base orb]; intros H2 H3 H4 N1 N2 N3.
    all: repeat match goal with HH : false = false -> _ |- _ => specialize (HH eq_refl); subst end.
    all: cbn [app].
    all: unfold pop; lazy -[from_callable derivative_pair self_scipy_constraints dupdate written cons_value resize_hess self_resize_jac flag_heap] in H1, H2, H3, H4 |- *.
    all: rewrite H1, H2, H3; cbv iota; try rewrite H4; try (injection H4 as <-); reflexivity.
  Qed.

  (** ** BasinHopping *)
  Notation bp := [pos_param "objective"; pos_param "parameters"].
  Definition base_attrs (ps : list sym) (o : aval) (f : fn) (more : attrs) : attrs :=
    [("parameters", VParams ps); ("_fixed_params", VParams (filter (fun p => p_fixed (hF p)) ps)); ("objective", VObjective f);
     ("_pickle_kwargs", VKwargs ([("parameters", VParams ps); ("objective", o)] ++ more)); ("params", VParams (filter (fun p => negb (p_fixed (hF p))) ps))].
  Definition basin_attrs (ps : list sym) (o : aval) (f : fn) (loc : aval) (lo : object) : attrs :=
    base_attrs ps o f [("local_minimizer", loc)] ++ [("constraints", VCons []); ("jacobian", VNone); ("wrapped_jacobian", VNone); ("local_minimizer", VMin lo)].
  Definition local_rule (make : mclass -> list aval -> attrs -> res object) (ps : list sym) (f : fn) (loc : aval) (lo : object) : Prop :=
    (loc = VMin lo /\ inb ScipyMinimize (mro (class_of lo)) = true) \/ (exists c, loc = VClass c /\ make c [VObjective f; VParams ps] [] = Ok lo).
  Lemma scipy_class c : inb ScipyMinimize (mro (Concrete c)) = true.
  Proof using. destruct c; vm_compute; reflexivity. Qed.
  Lemma basin_attrs_nodup ps o f loc lo : NoDup (dkeys (basin_attrs ps o f loc lo)).
  Proof using. apply nodupb_iff. reflexivity. Qed.
  Definition local_option (kw : attrs) : aval := match dget kw "local_minimizer" with Some v => v | None => VClass BFGS end.

  Lemma basin_init make self args kw :
    init_chain wrap make hF (Concrete BasinHopping) (mro (Concrete BasinHopping)) self args kw =
      (self <- init_chain wrap make hF (Concrete BasinHopping) [ScipyMinimize; GlobalMinimizer; BaseMinimizer] (dset self "local_minimizer" (local_option kw)) args (ddel kw "local_minimizer") ;;
       self <- remember self "local_minimizer" (local_option kw) ;;
       match local_option kw with
       | VClass c => if inb ScipyMinimize (mro (Concrete c))
                     then o <- getattr self "objective" ;; p <- getattr self "parameters" ;;
                          m <- make c [o; p] [] ;; Ok (dset self "local_minimizer" (VMin m))
                     else Raise TypeError
       | VMin m => if inb ScipyMinimize (mro (class_of m)) then Ok self else Raise TypeError
       | _ => Raise TypeError
       end).
  Proof using. let l := eval vm_compute in (mro (Concrete BasinHopping)) in change (mro (Concrete BasinHopping)) with l. reflexivity. Qed.

  Lemma basin_last make d self ps o f loc :
    same_map d (dupdate (dset self "local_minimizer" loc) (written hF BasinHopping ps o (VObjective f) VNone VNone VNone (VNone, VNone) (VNone, VNone) [])) ->
    forall lo, local_rule make ps f loc lo ->
    exists d', (d1 <- remember d "local_minimizer" loc ;;
       match loc with
       | VClass c => if inb ScipyMinimize (mro (Concrete c))
                     then o <- getattr d1 "objective" ;; p <- getattr d1 "parameters" ;;
                          m <- make c [o; p] [] ;; Ok (dset d1 "local_minimizer" (VMin m))
                     else Raise TypeError
       | VMin m => if inb ScipyMinimize (mro (class_of m)) then Ok d1 else Raise TypeError
       | _ => Raise TypeError
       end) = Ok d' /\ same_map d' (dupdate self (basin_attrs ps o f loc lo)).
  Proof using.
    intros Hd lo Hlo.
    assert (Hw : forall k, dget d k = match dget (written hF BasinHopping ps o (VObjective f) VNone VNone VNone (VNone, VNone) (VNone, VNone) []) k with Some v => Some v | None => dget (dset self "local_minimizer" loc) k end)
      by (intros k; rewrite (Hd k); apply dget_dupdate_nodup; apply written_nodup).
    rewrite (remember_eq d "local_minimizer" loc [("parameters", VParams ps); ("objective", o)]) by (rewrite Hw; reflexivity).
    change (dset [("parameters", VParams ps); ("objective", o)] "local_minimizer" loc) with [("parameters", VParams ps); ("objective", o); ("local_minimizer", loc)]. cbn [bind].
    assert (Hfin : forall k, dget (dset (dset d "_pickle_kwargs" (VKwargs [("parameters", VParams ps); ("objective", o); ("local_minimizer", loc)])) "local_minimizer" (VMin lo)) k =
       dget (dupdate self (basin_attrs ps o f loc lo)) k).
    { intros k. rewrite dget_dupdate_nodup by apply basin_attrs_nodup. rewrite !dget_dset, Hw. rewrite !dget_dset.
      unfold basin_attrs, base_attrs, written, remembered, is_gradient, is_hessian, is_constrained; cbn [issubclass bases existsb same_base orb app fst snd dget].
      repeat match goal with |- context [eq_dec ?x ?s] => is_var x; destruct (eq_dec x s) as [->|?]; [reflexivity|] end; reflexivity. }
    destruct Hlo as [(-> & Hs)|(c & -> & Hm)].
    - rewrite Hs. eexists. split; [reflexivity|]. intros k. rewrite <- Hfin. rewrite (dget_dset (dset d _ _) "local_minimizer" k).
      destruct (eq_dec k "local_minimizer") as [->|]; [|reflexivity]. rewrite dget_dset_ne by discriminate. rewrite Hw. rewrite dget_dset_eq. reflexivity.
    - rewrite scipy_class. unfold getattr. rewrite !dget_dset_ne by discriminate. rewrite !Hw.
      assert (E1 : dget (written hF BasinHopping ps o (VObjective f) VNone VNone VNone (VNone, VNone) (VNone, VNone) []) "objective" = Some (VObjective f)) by reflexivity.
      assert (E2 : dget (written hF BasinHopping ps o (VObjective f) VNone VNone VNone (VNone, VNone) (VNone, VNone) []) "parameters" = Some (VParams ps)) by reflexivity.
      rewrite E1, E2. cbn [of_opt bind]. rewrite Hm. cbn [bind]. eexists. split; [reflexivity|exact Hfin].
  Qed.
  Lemma basin_closed self args kw d : closed wrap hF BasinHopping self args kw = Ok d ->
    exists b o ps f, sig_bind bp args kw = Ok b /\ dget b "objective" = Some o /\ dget b "parameters" = Some (VParams ps) /\ from_callable wrap ps o = Ok (VObjective f) /\
      d = dupdate self (written hF BasinHopping ps o (VObjective f) VNone VNone VNone (VNone, VNone) (VNone, VNone) []).
  Proof using.
    intros H. apply closed_inv in H as (b & o & ps & f & jp & sp & w & Hb & Ho & Hp & [H1 H2 H3 H4 _ _ _] & ->). exists b, o, ps, f. split; [exact Hb|]. split; [exact Ho|]. split; [exact Hp|]. split; [exact H1|].
    cbn in H2, H3, H4. injection H2 as <-. injection H3 as <-. injection H4 as <-. reflexivity.
  Qed.

  Lemma basin_inv make self args kw d : init_chain wrap make hF (Concrete BasinHopping) (mro (Concrete BasinHopping)) self args kw = Ok d ->
    exists b o ps f lo, sig_bind bp args (ddel kw "local_minimizer") = Ok b /\ dget b "objective" = Some o /\ dget b "parameters" = Some (VParams ps) /\
      from_callable wrap ps o = Ok (VObjective f) /\ local_rule make ps f (local_option kw) lo /\ same_map d (dupdate self (basin_attrs ps o f (local_option kw) lo)).
  Proof using.
    rewrite basin_init. pose proof (basin_tail wrap make hF (dset self "local_minimizer" (local_option kw)) args (ddel kw "local_minimizer")) as Ht.
    destruct (init_chain wrap make hF (Concrete BasinHopping) [ScipyMinimize; GlobalMinimizer; BaseMinimizer] _ args _) as [d1|]; [|discriminate].
    destruct (closed wrap hF BasinHopping _ args _) as [d2|] eqn:Ec; [|destruct Ht]. apply basin_closed in Ec as (b & o & ps & f & Hb & Ho & Hp & Hf & ->).
    cbn [eqv] in Ht. cbn [bind]. intros Hd. exists b, o, ps, f.
    assert (Hlo : exists lo, local_rule make ps f (local_option kw) lo).
    { assert (Hw : forall k, dget d1 k = match dget (written hF BasinHopping ps o (VObjective f) VNone VNone VNone (VNone, VNone) (VNone, VNone) []) k with Some v => Some v | None => dget (dset self "local_minimizer" (local_option kw)) k end)
        by (intros k; rewrite (Ht k); apply dget_dupdate_nodup; apply written_nodup).
      rewrite (remember_eq d1 "local_minimizer" (local_option kw) [("parameters", VParams ps); ("objective", o)]) in Hd by (rewrite Hw; reflexivity). cbn [bind] in Hd.
      destruct (local_option kw) as [| | | | | | | | |c|m| |]; try discriminate.
      - rewrite scipy_class in Hd. unfold getattr in Hd. rewrite !dget_dset_ne in Hd by discriminate. rewrite !Hw in Hd.
        change (dget (written hF BasinHopping ps o (VObjective f) VNone VNone VNone (VNone, VNone) (VNone, VNone) []) "objective") with (Some (@VObjective raw f)) in Hd.
        change (dget (written hF BasinHopping ps o (VObjective f) VNone VNone VNone (VNone, VNone) (VNone, VNone) []) "parameters") with (Some (@VParams raw ps)) in Hd.
        cbn [of_opt bind] in Hd. destruct (make c [VObjective f; VParams ps] []) as [lo|] eqn:Em; [|discriminate]. exists lo. right. exists c. auto.
      - destruct (inb ScipyMinimize (mro (class_of m))) eqn:Ei; [|discriminate]. exists m. left. auto. }
    destruct Hlo as (lo & Hlo). exists lo. split; [exact Hb|]. split; [exact Ho|]. split; [exact Hp|]. split; [exact Hf|]. split; [exact Hlo|].
    destruct (basin_last make d1 self ps o f _ Ht lo Hlo) as (d' & Hd' & Hm). rewrite Hd in Hd'. injection Hd' as <-. exact Hm.
  Qed.
  Lemma basin_build make self ps o f loc lo : from_callable wrap ps o = Ok (VObjective f) -> local_rule make ps f loc lo ->
    exists d, init_chain wrap make hF (Concrete BasinHopping) (mro (Concrete BasinHopping)) self [] [("parameters", VParams ps); ("objective", o); ("local_minimizer", loc)] = Ok d /\
      same_map d (dupdate self (basin_attrs ps o f loc lo)).
  Proof using.
    intros Hf Hlo. rewrite basin_init. change (local_option [("parameters", VParams ps); ("objective", o); ("local_minimizer", loc)]) with loc.
    change (ddel [("parameters", VParams ps); ("objective", o); ("local_minimizer", loc)] "local_minimizer") with [("parameters", VParams ps); ("objective", o)].
    pose proof (basin_tail wrap make hF (dset self "local_minimizer" loc) [] [("parameters", VParams ps); ("objective", o)]) as Ht.
    assert (Ec : closed wrap hF BasinHopping (dset self "local_minimizer" loc) [] [("parameters", VParams ps); ("objective", o)] =
      Ok (dupdate (dset self "local_minimizer" loc) (written hF BasinHopping ps o (VObjective f) VNone VNone VNone (VNone, VNone) (VNone, VNone) []))).
    { apply (closed_remembered BasinHopping (dset self "local_minimizer" loc) ps o f VNone VNone VNone (VNone, VNone) (VNone, VNone) []). split; try reflexivity. exact Hf. }
    rewrite Ec in Ht. destruct (init_chain wrap make hF (Concrete BasinHopping) [ScipyMinimize; GlobalMinimizer; BaseMinimizer] _ [] _) as [d1|]; [|destruct Ht].
    cbn [eqv] in Ht. cbn [bind]. exact (basin_last make d1 self ps o f loc Ht lo Hlo).
  Qed.

  (** ** ChainedMinimizer *)
  Definition chain_attrs (ps : list sym) (o : aval) (f : fn) (l : list object) (s : signature) : attrs :=
    base_attrs ps o f [("minimizers", VMins l)] ++ [("minimizers", VMins l); ("__signature__", VSignature s)].
  Definition names_of_chain (l : list object) : list string := map (fun o => py_name (class_of o)) l.
  Lemma chain_attrs_nodup ps o f l s : NoDup (dkeys (chain_attrs ps o f l s)).
  Proof using. apply nodupb_iff. reflexivity. Qed.
  Lemma chain_inv make self args kw d : init_chain wrap make hF ChainedMinimizer (mro ChainedMinimizer) self args kw = Ok d ->
    exists b o ps f l s, sig_bind bp args (ddel kw "minimizers") = Ok b /\ dget b "objective" = Some o /\ dget b "parameters" = Some (VParams ps) /\
      from_callable wrap ps o = Ok (VObjective f) /\ dget kw "minimizers" = Some (VMins l) /\ chain_signature (names_of_chain l) = Ok s /\ same_map d (dupdate self (chain_attrs ps o f l s)).
  Proof using.
    let l := eval vm_compute in (mro ChainedMinimizer) in change (mro ChainedMinimizer) with l. cbn [init_chain pop]. unfold base_init.
    destruct (sig_bind bp args (ddel kw "minimizers")) as [b|]; [|discriminate]. cbn [bind]. unfold dlook. destruct (dget b "objective") as [o|] eqn:Eo; [|discriminate]. cbn [bind of_opt]. destruct (dget b "parameters") as [p|] eqn:Ep; [|discriminate]. cbn [bind of_opt].
    destruct p as [| | |ps| | | | | | | | |]; try discriminate. destruct (from_callable wrap ps o) as [f|] eqn:Ef; [|discriminate]. cbn [bind]. destruct (from_callable_value wrap _ _ _ Ef) as (g & ->).
    rewrite (remember_eq _ "minimizers" _ [("parameters", VParams ps); ("objective", o)]) by (rewrite !dget_dset_ne by discriminate; apply dget_dset_eq). cbn [bind].
    destruct (dget kw "minimizers") as [v|]; [|discriminate]. destruct v as [| | | | | | | | | | |l|]; try discriminate.
    fold (names_of_chain l). destruct (chain_signature (names_of_chain l)) as [s|] eqn:Es; [|discriminate]. cbn [bind]. intros H. injection H as <-.
    exists b, o, ps, g, l, s. repeat (split; [assumption || reflexivity|]). intros k. rewrite dget_dupdate_nodup by apply chain_attrs_nodup.
    change (dset [("parameters", VParams ps); ("objective", o)] "minimizers" (VMins l)) with [("parameters", VParams ps); ("objective", o); ("minimizers", VMins l)].
    rewrite !dget_dset. unfold chain_attrs, base_attrs. cbn [app dget].
    repeat match goal with |- context [eq_dec ?x ?s] => is_var x; destruct (eq_dec x s) as [->|?]; [reflexivity|] end; reflexivity.
  Qed.
  Lemma chain_build make self ps o f l s : from_callable wrap ps o = Ok (VObjective f) -> chain_signature (names_of_chain l) = Ok s ->
    exists d, init_chain wrap make hF ChainedMinimizer (mro ChainedMinimizer) self [] [("parameters", VParams ps); ("objective", o); ("minimizers", VMins l)] = Ok d /\
      same_map d (dupdate self (chain_attrs ps o f l s)).
  Proof using.
    intros Hf Hs. let l := eval vm_compute in (mro ChainedMinimizer) in change (mro ChainedMinimizer) with l. cbn [init_chain pop]. unfold base_init.
    change (dget [("parameters", VParams ps); ("objective", o); ("minimizers", VMins l)] "minimizers") with (Some (VMins l)).
    change (sig_bind bp [] (ddel [("parameters", VParams ps); ("objective", o); ("minimizers", VMins l)] "minimizers")) with (@Ok attrs [("objective", o); ("parameters", VParams ps)]). cbn [bind].
    change (dlook [("objective", o); ("parameters", VParams ps)] "objective") with (Ok o). change (dlook [("objective", o); ("parameters", VParams ps)] "parameters") with (@Ok aval (VParams ps)). cbn [bind]. rewrite Hf. cbn [bind].
    rewrite (remember_eq _ "minimizers" _ [("parameters", VParams ps); ("objective", o)]) by (rewrite !dget_dset_ne by discriminate; apply dget_dset_eq). cbn [bind].
    fold (names_of_chain l). rewrite Hs. cbn [bind]. eexists. split; [reflexivity|]. intros k. rewrite dget_dupdate_nodup by apply chain_attrs_nodup.
    change (dset [("parameters", VParams ps); ("objective", o)] "minimizers" (VMins l)) with [("parameters", VParams ps); ("objective", o); ("minimizers", VMins l)].
    rewrite !dget_dset. unfold chain_attrs, base_attrs. cbn [app dget].
    repeat match goal with |- context [eq_dec ?x ?s] => is_var x; destruct (eq_dec x s) as [->|?]; [reflexivity|] end; reflexivity.
  Qed.
End Main.
