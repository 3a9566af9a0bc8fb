(** * MinObjNew: what a newly created minimizer hands to scipy. *)
From Coq Require Import Reals Lia.
From Verif Require Import PyBase PyFacts Signature SignatureFacts Expr NumPy Model Objective Minimizer MinSpec MinLemmas MinObj MinObjSpec MinObjFacts MinObjMain MinObjCopy MinObjThm.
Local Open Scope string_scope.
Local Open Scope list_scope.

Section New.
  Context {raw : Type} (wrap : list sym -> raw -> res fn).
  Notation attrs := (attrs raw).
  Notation aval := (aval raw).
  Notation object := (object raw).

  Lemma rest_nil c (kw : attrs) k : rest_kw c kw = [] -> dmem kw k = true -> supports c k.
  Proof using.
    intros Hr Hk. unfold supports. rewrite <- gradient_uses, <- hessian_uses, <- constrained_uses.
    assert (H : dget (rest_kw c kw) k = None) by (rewrite Hr; reflexivity). unfold rest_kw in H. apply dmem_keys in Hk. destruct (dget kw k) as [v|] eqn:Hv; [clear Hk; rename Hv into Hk|apply dget_None in Hv; contradiction].
    destruct (is_hessian c), (is_gradient c), (is_constrained c); rewrite ?dget_ddel in H;
      repeat match goal with H : context [eq_dec ?a ?b] |- _ => destruct (eq_dec a b) as [->|?] end; try tauto; congruence.
  Qed.
  Lemma rest_supported c (kw : attrs) k : dmem kw k = true -> ~ supports c k -> rest_kw c kw <> [].
  Proof using. intros Hk Hs H. apply Hs. exact (rest_nil c kw k H Hk). Qed.

  Lemma pair_function r ps (kw : attrs) n jp : derivative_pair wrap r ps (match dget kw n with Some v => v | None => VNone end) = Ok jp ->
    exists f, function_of wrap ps (dget kw n) f /\ jp = (match f with Some f => (VObjective f, VWrapped (r f)) | None => (VNone, VNone) end).
  Proof using.
    destruct (dget kw n) as [v|]; [|intros H; injection H as <-; exists None; split; reflexivity]. destruct v; cbn; try discriminate.
    - intros H. injection H as <-. exists None. split; reflexivity.
    - destruct (wrap ps f) as [g|] eqn:E; cbn; [|discriminate]. intros H. injection H as <-. exists (Some g). split; [exists g; auto|reflexivity].
    - intros H. injection H as <-. exists (Some f). split; reflexivity.
  Qed.
  Lemma callable_function ps v f : from_callable wrap ps v = Ok (VObjective f) -> function_of wrap ps (Some v) (Some f).
  Proof using.
    destruct v as [|r|g| | | | | | | | | |]; cbn; try discriminate; intros H.
    - destruct (wrap ps r) as [g|]; cbn in H; [|discriminate]. injection H as ->. exists f. auto.
    - injection H as ->. reflexivity.
  Qed.
  Lemma option_fun b r ps (kw : attrs) n jp : (b = false -> dget kw n = None) -> derivative_pair wrap r ps (option_value b kw n) = Ok jp ->
    exists f, function_of wrap ps (dget kw n) f /\ (b = false -> f = None) /\ jp = (match f with Some f => (VObjective f, VWrapped (r f)) | None => (VNone, VNone) end).
  Proof using.
    intros Hb H. unfold option_value in H. destruct b.
    - apply pair_function in H as (f & Hf & ->). exists f. split; [exact Hf|]. split; [discriminate|reflexivity].
    - injection H as <-. exists None. rewrite (Hb eq_refl). repeat split.
  Qed.
  Lemma unsupported_absent c (kw : attrs) n : rest_kw c kw = [] -> ~ supports c n -> dget kw n = None.
  Proof using.
    intros Hr Hn. destruct (dget kw n) as [v|] eqn:E; [|reflexivity]. exfalso. apply Hn. apply (rest_nil c kw n Hr). apply dmem_keys. apply dget_Some_key in E. exact E.
  Qed.

  (** What a minimizer hands to scipy, with or without an initial guess *)
  Lemma written_problem h c ps o f jac hess cs w g (d : attrs) mn :
    let fixed := filter (fun p => p_fixed (h p)) ps in
    c <> BasinHopping ->
    (is_gradient c = false -> jac = None) -> (is_hessian c = false -> hess = None) ->
    (if is_constrained c then self_scipy_constraints (Concrete c) fixed ps cs else Ok []) = Ok w ->
    minimizer_init h c ps jac hess cs = Ok mn ->
    forall rj rs rc,
    same_map d (written h c ps o (VObjective f) rj rs rc
      (match jac with Some j => (VObjective j, VWrapped (self_resize_jac (Concrete c) fixed ps j)) | None => (VNone, VNone) end)
      (match hess with Some s => (VObjective s, VWrapped (resize_hess fixed ps s)) | None => (VNone, VNone) end) w ++ guess_part g) ->
    forall h' uj uh, problem_of h' (Obj (Concrete c) d) uj uh =
      Ok (execute_problem h' {| mi_class := mi_class mn; mi_parameters := mi_parameters mn; mi_fixed := mi_fixed mn; mi_params := mi_params mn; mi_guess := g;
            mi_jacobian := mi_jacobian mn; mi_hessian := mi_hessian mn; mi_cons := mi_cons mn |} uj uh).
  Proof using.
    intros fixed Hc Hj Hs Hw Hm rj rs rc Hd h' uj uh. rewrite (problem_ext (Concrete c) d _ (fun k _ => Hd k)).
    unfold minimizer_init in Hm. fold fixed in Hm. unfold self_scipy_constraints in Hw.
    destruct (if is_constrained c then scipy_constraints c fixed ps cs else Ok []) as [l|] eqn:El; [|discriminate]. cbn [bind] in Hm. injection Hm as <-.
    assert (Hw' : w = if is_constrained c then match c with TrustConstr => map HNonlinear (trust_constraints l) | _ => map HDict l end else []).
    { destruct (is_constrained c); [|injection Hw as <-; reflexivity]. rewrite El in Hw. cbn [bind] in Hw. injection Hw as <-. reflexivity. }
    clear Hw El Hd d.
    assert (HB : forall (A : sym -> option R) (B : sym -> option R) l, map fst (map (fun p => (A p, B p)) l) = map A l) by (intros; rewrite map_map; reflexivity).
    assert (HB' : forall (A : sym -> option R) (B : sym -> option R) l, map snd (map (fun p => (A p, B p)) l) = map B l) by (intros; rewrite map_map; reflexivity).
    destruct c; try congruence;
      repeat match goal with
      | H : is_gradient ?c = false -> _ = None |- _ => first [specialize (H eq_refl); subst | clear H]
      | H : is_hessian ?c = false -> _ = None |- _ => first [specialize (H eq_refl); subst | clear H]
      end;
      unfold execute_problem, bounds, minpack_bounds, bounds; cbn [mi_class mi_params]; repeat match goal with |- context [is_bounded ?c] => let b := eval vm_compute in (is_bounded c) in change (is_bounded c) with b end; cbn [option_map fst snd]; cbv iota; rewrite ?HB, ?HB'; try subst w;
      repeat match goal with x : option fn |- _ => destruct x end; destruct g; reflexivity.
  Qed.

  Theorem created h c ov ps kw ob : c <> BasinHopping -> new wrap h (Concrete c) [ov; VParams ps] kw = Ok ob ->
    (forall k, dmem kw k = true -> supports c k) /\
    exists f jac hess cons mn, function_of wrap ps (Some ov) (Some f) /\ function_of wrap ps (dget kw "jacobian") jac /\ function_of wrap ps (dget kw "hessian") hess /\
      constraints_of (dget kw "constraints") cons /\ dget (attrs_of ob) "objective" = Some (VObjective f) /\ dget (attrs_of ob) "parameters" = Some (VParams ps) /\
      class_of ob = Concrete c /\
      minimizer_init h c ps jac hess cons = Ok mn /\ (forall h' uj uh, problem_of h' ob uj uh = Ok (execute_problem h' mn uj uh)) /\
      (forall g h' uj uh, problem_of h' (set_guesses ob g) uj uh = Ok (execute_problem h' (with_guess mn (Some g)) uj uh)).
  Proof using.
    intros Hc H. set (F := fun p => p_fixed (h p)). assert (Hh : fixes h F) by (intros p; reflexivity).
    unfold new in H. rewrite (make_flags wrap F 3 h Hh) in H. cbn [make_object] in H.
    destruct (init_chain wrap _ (flag_heap F) (Concrete c) (mro (Concrete c)) [] [ov; VParams ps] kw) as [d|] eqn:Ei; [|discriminate]. cbn [bind] in H. injection H as <-.
    match type of Ei with init_chain _ ?mk _ _ _ _ _ _ = _ => pose proof (init_closed wrap mk (flag_heap F) c [] [ov; VParams ps] kw Hc) as He end. rewrite Ei in He.
    destruct (closed wrap (flag_heap F) c [] [ov; VParams ps] kw) as [d0|] eqn:Ec; [|destruct He]. cbn [eqv] in He.
    apply closed_inv in Ec as (b & ov' & ps' & f & jp & sp & w & Hb & Ho & Hp & Hs & ->). apply bind_two in Hb as (Hr & ->). cbn in Ho, Hp. injection Ho as <-. injection Hp as <-.
    assert (Hd : same_map d (written h c ps ov (VObjective f) (option_value (is_gradient c) kw "jacobian") (option_value (is_hessian c) kw "hessian") (option_value (is_constrained c) kw "constraints") jp sp w ++ guess_part None)).
    { intros k. rewrite (He k). rewrite dget_empty_update by apply written_nodup. reflexivity. }
    split; [intros k; apply rest_nil; exact Hr|].
    destruct Hs as [H1 H2 H3 H4 _ _ _].
    apply option_fun in H2 as (jac & Hjac & Hj & ->).
    2:{ intros E. apply (unsupported_absent c kw "jacobian" Hr). unfold supports. rewrite <- gradient_uses, E. intros [[_ ?]|[[? _]|[[? _]|[? _]]]]; discriminate. }
    apply option_fun in H3 as (hess & Hhess & Hhs & ->).
    2:{ intros E. apply (unsupported_absent c kw "hessian" Hr). unfold supports. rewrite <- hessian_uses, E. intros [[? _]|[[_ ?]|[[? _]|[? _]]]]; discriminate. }
    assert (Hcons : exists cs, constraints_of (dget kw "constraints") cs /\ (if is_constrained c then self_scipy_constraints (Concrete c) (filter (fun p => p_fixed (h p)) ps) ps cs else Ok []) = Ok w).
    { unfold option_value in H4. destruct (is_constrained c) eqn:E.
      - destruct (dget kw "constraints") as [v|]; [|exists []; split; [reflexivity|exact H4]]. destruct v; try discriminate; [exists []; split; [reflexivity|exact H4]|]. exists l. split; [reflexivity|exact H4].
      - exists []. split; [|exact H4]. rewrite (unsupported_absent c kw "constraints" Hr); [reflexivity|]. unfold supports. rewrite <- constrained_uses, E. intros [[? _]|[[? _]|[[_ ?]|[? _]]]]; discriminate. }
    destruct Hcons as (cs & Hcs & Hw).
    assert (Hm : exists mn, minimizer_init h c ps jac hess cs = Ok mn).
    { unfold minimizer_init. unfold self_scipy_constraints in Hw. destruct (is_constrained c); [|eexists; reflexivity]. destruct (scipy_constraints c _ ps cs); [|discriminate]. eexists; reflexivity. }
    destruct Hm as (mn & Hm). exists f, jac, hess, cs, mn.
    assert (HA : forall n, In n ["objective"; "parameters"] -> dget d n = dget (written h c ps ov (VObjective f) VNone VNone VNone (VNone, VNone) (VNone, VNone) []) n).
    { intros n Hn. rewrite (Hd n). destruct Hn as [<-|[<-|[]]]; destruct c; reflexivity. }
    split. { apply callable_function. exact H1. }
    split; [exact Hjac|]. split; [exact Hhess|]. split; [exact Hcs|].
    split; [cbn [attrs_of]; rewrite (HA "objective") by (cbn; tauto); reflexivity|]. split; [cbn [attrs_of]; rewrite (HA "parameters") by (cbn; tauto); reflexivity|]. split; [reflexivity|]. split; [exact Hm|]. split.
    - intros h' uj uh. rewrite (written_problem h c ps ov f jac hess cs w None d mn Hc Hj Hhs Hw Hm _ _ _ Hd). f_equal. f_equal.
      unfold minimizer_init in Hm. cbv zeta in Hm. match type of Hm with bind ?X _ = _ => destruct X; [|discriminate] end. cbn [bind] in Hm. injection Hm as <-. reflexivity.
    - intros g h' uj uh. cbn [set_guesses]. apply (written_problem h c ps ov f jac hess cs w (Some g) _ mn Hc Hj Hhs Hw Hm (option_value (is_gradient c) kw "jacobian") (option_value (is_hessian c) kw "hessian") (option_value (is_constrained c) kw "constraints")).
      eapply guess_map; [|exact Hd]. destruct c; reflexivity.
  Qed.

  Theorem unsupported_rejected h c ov ps kw k : c <> BasinHopping -> dmem kw k = true -> ~ supports c k -> new wrap h (Concrete c) [ov; VParams ps] kw = Raise TypeError.
  Proof using.
    intros Hc Hk Hs. unfold new. cbn [make_object].
    match goal with |- context [init_chain _ ?mk _ _ _ _ _ _] => pose proof (init_closed wrap mk h c [] [ov; VParams ps] kw Hc) as He end.
    assert (Ec : closed wrap h c [] [ov; VParams ps] kw = Raise TypeError).
    { pose proof (rest_supported c kw k Hk Hs) as Hr. unfold closed, popped, pop. unfold rest_kw in Hr. destruct (is_hessian c), (is_gradient c), (is_constrained c); rewrite bind_error by exact Hr; reflexivity. }
    rewrite Ec in He. destruct (init_chain wrap _ h (Concrete c) _ [] _ kw) as [d|e]; [destruct He|]. cbn [eqv] in He. subst e. reflexivity.
  Qed.

  (** BasinHopping *)
  Theorem created_basin h ov ps kw ob : new wrap h (Concrete BasinHopping) [ov; VParams ps] kw = Ok ob ->
    (forall k, dmem kw k = true -> supports BasinHopping k) /\
    exists f lo mn, function_of wrap ps (Some ov) (Some f) /\ dget (attrs_of ob) "objective" = Some (VObjective f) /\ dget (attrs_of ob) "parameters" = Some (VParams ps) /\
      class_of ob = Concrete BasinHopping /\ dget (attrs_of ob) "local_minimizer" = Some (VMin lo) /\
      match dget kw "local_minimizer" with
      | None => new wrap h (Concrete BFGS) [VObjective f; VParams ps] [] = Ok lo
      | Some (VClass c) => new wrap h (Concrete c) [VObjective f; VParams ps] [] = Ok lo
      | Some (VMin m) => lo = m
      | _ => False
      end /\
      minimizer_init h BasinHopping ps None None [] = Ok mn /\ (forall h' uj uh, problem_of h' ob uj uh = Ok (execute_problem h' mn uj uh)).
  Proof using.
    intros H. set (F := fun p => p_fixed (h p)). assert (Hh : fixes h F) by (intros p; reflexivity).
    unfold new in H. rewrite (make_flags wrap F 3 h Hh) in H. cbn [make_object] in H.
    destruct (init_chain wrap _ (flag_heap F) (Concrete BasinHopping) _ [] [ov; VParams ps] kw) as [d|] eqn:Ei; [|discriminate]. cbn [bind] in H. injection H as <-.
    destruct (basin_inv wrap F _ _ _ _ _ Ei) as (b & ov' & ps' & f & lo & Hb & Ho & Hp & Hf & Hl & Hd).
    apply bind_two in Hb as (Hr & ->). cbn in Ho, Hp. injection Ho as <-. injection Hp as <-.
    split.
    { intros k Hk. right. right. right. split; [|reflexivity]. apply dmem_keys in Hk. destruct (dget kw k) as [v|] eqn:Hv; [clear Hk; rename Hv into Hk|apply dget_None in Hv; contradiction]. assert (E : dget (ddel kw "local_minimizer") k = None) by (rewrite Hr; reflexivity).
      rewrite dget_ddel in E. destruct (eq_dec k "local_minimizer"); [assumption|congruence]. }
    exists f, lo, {| mi_class := BasinHopping; mi_parameters := ps; mi_fixed := filter (fun p => p_fixed (h p)) ps; mi_params := filter (fun p => negb (p_fixed (h p))) ps;
                     mi_guess := None; mi_jacobian := None; mi_hessian := None; mi_cons := [] |}.
    assert (Hd' : same_map d (basin_attrs F ps ov f (local_option kw) lo ++ guess_part None)) by (intros k; rewrite (Hd k); apply dget_empty_update, basin_attrs_nodup).
    split. { apply callable_function. exact Hf. }
    cbn [attrs_of]. rewrite !Hd'. split; [reflexivity|]. split; [reflexivity|]. split; [reflexivity|]. split; [reflexivity|]. split.
    { unfold local_option in Hl. destruct (dget kw "local_minimizer") as [v|].
      - destruct Hl as [(-> & _)|(c & -> & Hl)]; [reflexivity|]. unfold new. rewrite (make_flags wrap F 3 h Hh). apply (make_more wrap 2 3 (flag_heap F)); [lia|exact Hl].
      - destruct Hl as [(E & _)|(c & E & Hl)]; [discriminate|]. injection E as <-. unfold new. rewrite (make_flags wrap F 3 h Hh). apply (make_more wrap 2 3 (flag_heap F)); [lia|exact Hl]. }
    split; [reflexivity|]. intros h' uj uh. rewrite (problem_ext (Concrete BasinHopping) d _ (fun k _ => Hd' k)). reflexivity.
  Qed.
  (** ChainedMinimizer *)
  Theorem created_chain h ov ps kw ob : new wrap h ChainedMinimizer [ov; VParams ps] kw = Ok ob ->
    (forall k, dmem kw k = true -> k = "minimizers") /\
    exists f l s, function_of wrap ps (Some ov) (Some f) /\ dget kw "minimizers" = Some (VMins l) /\ class_of ob = ChainedMinimizer /\
      dget (attrs_of ob) "objective" = Some (VObjective f) /\ dget (attrs_of ob) "parameters" = Some (VParams ps) /\ dget (attrs_of ob) "minimizers" = Some (VMins l) /\
      chain_signature (map (fun o => py_name (class_of o)) l) = Ok s /\ dget (attrs_of ob) "__signature__" = Some (VSignature s).
  Proof using.
    intros H. set (F := fun p => p_fixed (h p)). assert (Hh : fixes h F) by (intros p; reflexivity).
    unfold new in H. rewrite (make_flags wrap F 3 h Hh) in H. cbn [make_object] in H.
    destruct (init_chain wrap _ (flag_heap F) ChainedMinimizer _ [] [ov; VParams ps] kw) as [d|] eqn:Ei; [|discriminate]. cbn [bind] in H. injection H as <-.
    destruct (chain_inv wrap F _ _ _ _ _ Ei) as (b & ov' & ps' & f & l & s & Hb & Ho & Hp & Hf & Hl & Hs & Hd).
    apply bind_two in Hb as (Hr & ->). cbn in Ho, Hp. injection Ho as <-. injection Hp as <-.
    split.
    { intros k Hk. apply dmem_keys in Hk. destruct (dget kw k) as [v|] eqn:Hv; [|apply dget_None in Hv; contradiction]. assert (E : dget (ddel kw "minimizers") k = None) by (rewrite Hr; reflexivity).
      rewrite dget_ddel in E. destruct (eq_dec k "minimizers"); [assumption|congruence]. }
    exists f, l, s. split; [apply callable_function; exact Hf|]. split; [exact Hl|]. split; [reflexivity|]. cbn [attrs_of]. rewrite !Hd, !dget_empty_update by apply chain_attrs_nodup.
    repeat (split; [reflexivity|]). split; [exact Hs|reflexivity].
  Qed.
End New.
