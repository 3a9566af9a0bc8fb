(** * MinExecMain: what every class calls scipy with. *)
From Coq Require Import Reals Lia.
From Verif Require Import PyBase PyFacts Signature SignatureFacts Expr NumPy Model Objective Minimizer MinSpec MinLemmas MinObj MinObjSpec MinObjFacts MinObjMain MinExec MinExecSpec MinExecFacts.
Local Open Scope string_scope.
Local Open Scope list_scope.

Section Main.
  Context {raw U : Type}.
  Notation options := (options U).
  Notation store := (store U).
  Notation scall := (scall raw U).
  Notation object := (object raw).
  Notation attrs := (attrs raw).
  Implicit Types (kw d : options) (st : store) (self : attrs) (o : object).

  Ltac keysn := unfold eqb; repeat match goal with |- context [eq_dec ?a ?b] => (is_var a; destruct (eq_dec a b) as [->|?]) || (is_var b; destruct (eq_dec a b) as [<-|?]) || (let e := fresh in destruct (eq_dec a b) as [e|?]; [discriminate e|]) || (destruct (eq_dec a b) as [_|]; [|congruence]) end.

  Lemma conflict_iff c kw (l : list string) : (forall n, reserved c n = inb n l) -> (conflicts c kw <-> exists n, In n l /\ dget kw n <> None).
  Proof using.
    intros Hl. unfold conflicts. split; intros (n & H1 & H2).
    - exists n. rewrite Hl in H2. apply inb_In in H2. split; [exact H2|]. rewrite dmem_dget in H1. destruct (dget kw n); discriminate.
    - exists n. rewrite Hl. split; [|apply inb_In; exact H1]. rewrite dmem_dget. destruct (dget kw n); [reflexivity|congruence].
  Qed.

  Definition Result c h self st kw pb f : Prop :=
    (conflicts c kw /\ one_call h (Obj (Concrete c) self) st kw = Raise TypeError) \/
    (~ conflicts c kw /\ exists k, one_call h (Obj (Concrete c) self) st kw = Ok (st, {| ca_function := SMinimize; ca_objective := f; ca_x0 := pb_x0 pb; ca_kw := k |}) /\
      forall n, dget k n = minimize_keywords c pb kw n).

  Lemma Result_intro c h self st kw pb f (r : res (store * scall)) x0 (extra : list string) :
    (forall n, reserved c n = inb n (passed_by ++ extra)) -> pb_x0 pb = Some x0 ->
    one_call h (Obj (Concrete c) self) st kw = (if existsb (dmem kw) extra then Raise TypeError else r) ->
    ((forall n, In n extra -> dget kw n = None) -> 
      (exists n, In n passed_by /\ dget kw n <> None) /\ r = Raise TypeError \/
      (forall n, In n passed_by -> dget kw n = None) /\ exists k, r = Ok (st, {| ca_function := SMinimize; ca_objective := f; ca_x0 := Some x0; ca_kw := k |}) /\ forall n, dget k n = minimize_keywords c pb kw n) ->
    Result c h self st kw pb f.
  Proof using.
    intros Hr Hx Ho H. unfold Result. rewrite Ho, Hx. destruct (existsb (dmem kw) extra) eqn:E.
    - left. split; [|reflexivity]. apply existsb_exists in E as (n & Hn & E). exists n. split; [exact E|]. rewrite Hr. apply inb_In, in_or_app. right. exact Hn.
    - assert (Hno : forall n, In n extra -> dget kw n = None).
      { intros n Hn. destruct (dget kw n) eqn:Ed; [|reflexivity]. exfalso. assert (existsb (dmem kw) extra = true); [|congruence]. apply existsb_exists. exists n. split; [exact Hn|]. rewrite dmem_dget, Ed. reflexivity. }
      destruct (H Hno) as [((n & Hn & Hd) & ->)|(Hp & Hk)].
      + left. split; [|reflexivity]. apply (conflict_iff c kw _ Hr). exists n. split; [apply in_or_app; auto|exact Hd].
      + right. split; [|exact Hk]. intros Hc. apply (conflict_iff c kw _ Hr) in Hc as (n & Hn & Hd). apply in_app_or in Hn as [Hn|Hn]; [rewrite (Hp n Hn) in Hd|rewrite (Hno n Hn) in Hd]; congruence.
  Qed.

  Lemma combine_maps (A B : sym -> option R) l : combine (map A l) (map B l) = map (fun p => (A p, B p)) l.
  Proof using. induction l as [|p l IH]; [reflexivity|]. cbn. rewrite IH. reflexivity. Qed.

  Ltac openmro := unfold one_call; match goal with |- context [mro ?X] => let l := eval vm_compute in (mro X) in change (mro X) with l end.
  Lemma skip_concrete h c self rest st kw : c <> TrustConstr -> c <> DifferentialEvolution -> c <> BasinHopping -> c <> MINPACK ->
    exec_chain (raw:=raw) h (Concrete c) self (Concrete c :: rest) st kw = exec_chain h (Concrete c) self rest st kw.
  Proof using. destruct c; congruence || reflexivity. Qed.

  Theorem minimize_call h c self st kw pb f : c <> TrustConstr -> c <> DifferentialEvolution -> c <> BasinHopping -> c <> MINPACK ->
    problem_of h (Obj (Concrete c) self) DNone DNone = Ok pb -> getattr self "objective" = Ok f -> Result c h self st kw pb f.
  Proof using.
    intros H1 H2 H3 H4 Hpb Hf. destruct (problem_parts h c self _ _ pb Hpb) as [(ps & Hps & Hb1 & Hb2) (x0 & Hx & Hx0) Hcons Hrt]. specialize (Hx0 H2).
    assert (Hbo : forall cls, (cls = Concrete c) -> bounds_opt (U:=U) h cls self = Ok (OBounds (map (fun p => (p_min (h p), p_max (h p))) ps))).
    { intros cls ->. unfold bounds_opt, bounds_of. rewrite Hps. cbn [bind]. destruct c; reflexivity || congruence. }
    specialize (Hbo _ eq_refl).
    assert (Hj : is_gradient c = true -> exists j, derivative_attr self "wrapped_jacobian" = Ok j /\ pb_jac pb = j).
    { intros Hg. revert Hpb. unfold problem_of. rewrite Hps. cbn [bind]. rewrite Hx. cbn [bind]. match goal with |- context [bind ?X _] => destruct X as [w|]; [|discriminate] end. cbn [bind].
      destruct c; try congruence; try discriminate Hg; cbv beta iota; try rewrite Hg; destruct (derivative_attr self "wrapped_jacobian") as [j|]; try discriminate; cbn [bind]; intros H; injection H as <-; exists j; split; reflexivity. }
    assert (Hj2 : is_gradient c = false -> pb_jac pb = DNone).
    { intros Hg. revert Hpb. unfold problem_of. rewrite Hps. cbn [bind]. rewrite Hx. cbn [bind]. match goal with |- context [bind ?X _] => destruct X as [w|]; [|discriminate] end. cbn [bind].
      destruct c; try congruence; try discriminate Hg; cbv beta iota; try rewrite Hg; cbn [bind]; intros H; injection H as <-; reflexivity. }
    assert (Hs : pb_hess pb = DNone).
    { revert Hpb. unfold problem_of. rewrite Hps. cbn [bind]. rewrite Hx. cbn [bind]. match goal with |- context [bind ?X _] => destruct X as [w|]; [|discriminate] end. cbn [bind].
      destruct c; try congruence; cbv beta iota; match goal with |- context [bind ?X _] => destruct X as [w2|]; [|discriminate] end; cbn [bind]; intros H; injection H as <-; reflexivity. }
    clear Hpb.
    destruct c; try congruence; clear H1 H2 H3 H4;
      try (destruct (Hj eq_refl) as (j & Hj1 & Hjp); pose proof (opt_of_attr (U:=U) _ _ _ Hj1) as HJ); try specialize (Hj2 eq_refl); clear Hj;
      try specialize (Hcons eq_refl); try (destruct (Hb1 eq_refl) as (Hlo & Hup)); try (destruct (Hb2 eq_refl) as (Hlo & Hup)); clear Hb1 Hb2.
    - eapply (Result_intro BFGS h self st kw pb f _ x0 []); [intros n; reflexivity|exact Hx0| |].
      + openmro. rewrite skip_concrete by discriminate. rewrite (layer_gradient _ _ _ _ _ _ _ HJ). reflexivity.
      + intros _. eapply calls_minimize; [exact Hf|exact Hx| |].
        * intros n Hn. cbn [dget]. rewrite ?dget_ddel. destruct Hn as [<-|[<-|[<-|[<-|[<-|[]]]]]]; keysn; reflexivity.
        * intros n Hno. unfold scipy_keywords, minimize_keywords, given, default, box. cbn [dget]. rewrite ?dget_ddel, ?Hlo, ?Hup, ?Hrt, ?Hjp, ?Hj2, ?Hs, ?combine_maps. cbn [routine_of uses_constraints derivative]. unfold preferred.
          keysn; try reflexivity; repeat match goal with |- context [dget kw ?x] => destruct (dget kw x) as [[]|] end; reflexivity.
    - eapply (Result_intro SLSQP h self st kw pb f _ x0 ["bounds"; "constraints"]); [intros n; reflexivity|exact Hx0| |].
      + openmro. rewrite skip_concrete by discriminate. rewrite (layer_gradient _ _ _ _ _ _ _ HJ), (layer_cons _ _ _ _ _ _ _ Hcons), (layer_bounds _ _ _ _ _ _ _ Hbo). cbn [existsb]. rewrite !dmem_dget. cbn [dget]. rewrite !dget_ddel. keysn. destruct (dget kw "bounds"), (dget kw "constraints"); reflexivity.
      + intros _. eapply calls_minimize; [exact Hf|exact Hx| |].
        * intros n Hn. cbn [dget]. rewrite ?dget_ddel. destruct Hn as [<-|[<-|[<-|[<-|[<-|[]]]]]]; keysn; reflexivity.
        * intros n Hno. unfold scipy_keywords, minimize_keywords, given, default, box. cbn [dget]. rewrite ?dget_ddel, ?Hlo, ?Hup, ?Hrt, ?Hjp, ?Hj2, ?Hs, ?combine_maps. cbn [routine_of uses_constraints derivative]. unfold preferred.
          keysn; try reflexivity; repeat match goal with |- context [dget kw ?x] => destruct (dget kw x) as [[]|] end; reflexivity.
    - eapply (Result_intro COBYLA h self st kw pb f _ x0 ["constraints"]); [intros n; reflexivity|exact Hx0| |].
      + openmro. rewrite skip_concrete by discriminate. rewrite (layer_cons _ _ _ _ _ _ _ Hcons). cbn [existsb]. destruct (dmem kw "constraints"); reflexivity.
      + intros _. eapply calls_minimize; [exact Hf|exact Hx| |].
        * intros n Hn. cbn [dget]. rewrite ?dget_ddel. destruct Hn as [<-|[<-|[<-|[<-|[<-|[]]]]]]; keysn; reflexivity.
        * intros n Hno. unfold scipy_keywords, minimize_keywords, given, default, box. cbn [dget]. rewrite ?dget_ddel, ?Hlo, ?Hup, ?Hrt, ?Hjp, ?Hj2, ?Hs, ?combine_maps. cbn [routine_of uses_constraints derivative]. unfold preferred.
          keysn; try reflexivity; repeat match goal with |- context [dget kw ?x] => destruct (dget kw x) as [[]|] end; reflexivity.
    - eapply (Result_intro LBFGSB h self st kw pb f _ x0 ["bounds"]); [intros n; reflexivity|exact Hx0| |].
      + openmro. rewrite skip_concrete by discriminate. rewrite (layer_gradient _ _ _ _ _ _ _ HJ), (layer_bounds _ _ _ _ _ _ _ Hbo). cbn [existsb]. rewrite !dmem_dget. cbn [dget]. rewrite !dget_ddel. keysn. destruct (dget kw "bounds"); reflexivity.
      + intros _. eapply calls_minimize; [exact Hf|exact Hx| |].
        * intros n Hn. cbn [dget]. rewrite ?dget_ddel. destruct Hn as [<-|[<-|[<-|[<-|[<-|[]]]]]]; keysn; reflexivity.
        * intros n Hno. unfold scipy_keywords, minimize_keywords, given, default, box. cbn [dget]. rewrite ?dget_ddel, ?Hlo, ?Hup, ?Hrt, ?Hjp, ?Hj2, ?Hs, ?combine_maps. cbn [routine_of uses_constraints derivative]. unfold preferred.
          keysn; try reflexivity; repeat match goal with |- context [dget kw ?x] => destruct (dget kw x) as [[]|] end; reflexivity.
    - eapply (Result_intro NelderMead h self st kw pb f _ x0 []); [intros n; reflexivity|exact Hx0| |].
      + openmro. rewrite skip_concrete by discriminate. reflexivity.
      + intros _. eapply calls_minimize; [exact Hf|exact Hx| |].
        * intros n Hn. cbn [dget]. rewrite ?dget_ddel. destruct Hn as [<-|[<-|[<-|[<-|[<-|[]]]]]]; keysn; reflexivity.
        * intros n Hno. unfold scipy_keywords, minimize_keywords, given, default, box. cbn [dget]. rewrite ?dget_ddel, ?Hlo, ?Hup, ?Hrt, ?Hjp, ?Hj2, ?Hs, ?combine_maps. cbn [routine_of uses_constraints derivative]. unfold preferred.
          keysn; try reflexivity; repeat match goal with |- context [dget kw ?x] => destruct (dget kw x) as [[]|] end; reflexivity.
    - eapply (Result_intro Powell h self st kw pb f _ x0 []); [intros n; reflexivity|exact Hx0| |].
      + openmro. rewrite skip_concrete by discriminate. reflexivity.
      + intros _. eapply calls_minimize; [exact Hf|exact Hx| |].
        * intros n Hn. cbn [dget]. rewrite ?dget_ddel. destruct Hn as [<-|[<-|[<-|[<-|[<-|[]]]]]]; keysn; reflexivity.
        * intros n Hno. unfold scipy_keywords, minimize_keywords, given, default, box. cbn [dget]. rewrite ?dget_ddel, ?Hlo, ?Hup, ?Hrt, ?Hjp, ?Hj2, ?Hs, ?combine_maps. cbn [routine_of uses_constraints derivative]. unfold preferred.
          keysn; try reflexivity; repeat match goal with |- context [dget kw ?x] => destruct (dget kw x) as [[]|] end; reflexivity.
  Qed.

  Lemma write_at st a d : a < List.length st -> nth_error (write st a d) a = Some d.
  Proof using. revert a. induction st as [|e st IH]; intros [|a] H; cbn in *; try lia; [reflexivity|]. apply IH. lia. Qed.
  Lemma write_other st a d b : b <> a -> nth_error (write st a d) b = nth_error st b.
  Proof using. revert a b. induction st as [|e st IH]; intros [|a] [|b] H; cbn; try reflexivity; try congruence. apply IH. congruence. Qed.
  Lemma write_length st a d : List.length (write st a d) = List.length st.
  Proof using. revert a. induction st as [|e st IH]; intros [|a]; cbn; try reflexivity. rewrite IH. reflexivity. Qed.

  (** a dictionary option *)
  Definition opened st (o : opt U) : store := if is_none o then st ++ [[]] else st.
  Lemma opened_read st (o : opt U) a d : dict_for st o a d -> read (opened st o) (if is_none o then ODict (List.length st) else o) = Ok (a, d) /\
    nth_error (opened st o) a = Some d /\ (forall b, b < List.length st -> nth_error (opened st o) b = nth_error st b).
  Proof using.
    unfold opened. intros [(-> & -> & ->)|(-> & H)]; cbn [is_none read].
    - assert (E : nth_error (st ++ [[]]) (List.length st) = Some ([] : options)) by (rewrite nth_error_app2 by lia; rewrite Nat.sub_diag; reflexivity).
      rewrite E. cbn. split; [reflexivity|]. split; [reflexivity|]. intros b Hb. apply nth_error_app1. exact Hb.
    - rewrite H. cbn. auto.
  Qed.

  Lemma if_none_preferred (u w : opt U) : if_none u w = preferred u w.
  Proof using. destruct u; reflexivity. Qed.
  Lemma layer_trust h self rest st kw a d aj ah j s : dict_for st (given kw "options") a d -> strategy_opt self = Ok (aj, ah) ->
    derivative_opt self "wrapped_jacobian" = Ok j -> derivative_opt self "wrapped_hessian" = Ok s ->
    exec_chain h (Concrete TrustConstr) self (Concrete TrustConstr :: rest) st kw =
    exec_chain h (Concrete TrustConstr) self rest (write (opened st (given kw "options")) a (dset d "sparse_jacobian" OFalse))
      (("hessian", preferred (preferred (given kw "hessian") ah) s) :: ("jacobian", preferred (preferred (given kw "jacobian") aj) j) ::
       ("options", ODict a) :: ddel (ddel (ddel kw "jacobian") "hessian") "options").
  Proof using.
    intros Hd Hst HJ HS. destruct (opened_read st _ a d Hd) as (Hread & _ & _).
    assert (Hopt : (if is_none (given kw "options") then ODict (List.length st) else given kw "options") = ODict a) by (destruct Hd as [(-> & -> & _)|(-> & _)]; reflexivity).
    cbn [exec_chain take].
    assert (E1 : match dget kw "jacobian" with Some v => v | None => ONone end = given kw "jacobian") by reflexivity.
    assert (E2 : match dget (ddel kw "jacobian") "hessian" with Some v => v | None => ONone end = given kw "hessian") by (rewrite dget_ddel; reflexivity).
    assert (E3 : match dget (ddel (ddel kw "jacobian") "hessian") "options" with Some v => v | None => ONone end = given kw "options") by (rewrite !dget_ddel; reflexivity).
    rewrite E1, E2, E3. clear E1 E2 E3.
    assert (E : (if is_none (given kw "options") then (ODict (List.length st), st ++ [[]]) else (given kw "options", st)) = (ODict a, opened st (given kw "options"))).
    { unfold opened. rewrite <- Hopt. destruct (is_none (given kw "options")); reflexivity. }
    rewrite E. rewrite <- Hopt at 1. rewrite Hread. cbn [bind]. rewrite Hst. cbn [bind]. rewrite HJ, HS. cbn [bind]. rewrite !if_none_preferred.
    repeat (rewrite also_ok; [|cbn [dget]; rewrite ?dget_ddel; keysn; reflexivity]; cbn [bind]). reflexivity.
  Qed.

  Theorem trust_call h self st kw pb f a d : problem_of h (Obj (Concrete TrustConstr) self) DNone DNone = Ok pb -> getattr self "objective" = Ok f ->
    dict_for st (given kw "options") a d ->
    (conflicts TrustConstr kw /\ one_call h (Obj (Concrete TrustConstr) self) st kw = Raise TypeError) \/
    (~ conflicts TrustConstr kw /\ exists st' k, one_call h (Obj (Concrete TrustConstr) self) st kw = Ok (st', {| ca_function := SMinimize; ca_objective := f; ca_x0 := pb_x0 pb; ca_kw := k |}) /\
      (forall n, dget k n = if eqb n "options" then Some (ODict a) else minimize_keywords TrustConstr pb kw n) /\
      nth_error st' a = Some (dset d "sparse_jacobian" OFalse) /\ only_at st st' a /\ st' = write (opened st (given kw "options")) a (dset d "sparse_jacobian" OFalse)).
  Proof using.
    intros Hpb Hf Hd. destruct (problem_parts h TrustConstr self _ _ pb Hpb) as [(ps & Hps & Hb1 & _) (x0 & Hx & Hx0) Hcons Hrt]. specialize (Hx0 ltac:(discriminate)). specialize (Hcons eq_refl). destruct (Hb1 eq_refl) as (Hlo & Hup). clear Hb1.
    assert (Hbo : bounds_opt (U:=U) h (Concrete TrustConstr) self = Ok (OBounds (map (fun p => (p_min (h p), p_max (h p))) ps))) by (unfold bounds_opt, bounds_of; rewrite Hps; reflexivity).
    assert (Hder : exists aj ah j s, strategy_opt (U:=U) self = Ok (derivative aj, derivative ah) /\ derivative_attr self "wrapped_jacobian" = Ok j /\ derivative_attr self "wrapped_hessian" = Ok s /\
       pb_jac pb = or_else aj j /\ pb_hess pb = or_else ah s).
    { revert Hpb. unfold problem_of. rewrite Hps. cbn [bind]. rewrite Hx. cbn [bind]. match goal with |- context [bind ?X _] => destruct X as [w|]; [|discriminate] end. cbn [bind].
      unfold strategy_attr, strategy_opt. destruct (getattr self "jacobian") as [vj|]; [|discriminate]. cbn [bind]. destruct (getattr self "hessian") as [vs|]; [|discriminate]. cbn [bind].
      match goal with |- (let (_, _) := ?X in _) = _ -> _ => set (S := X) end.
      destruct (derivative_attr self "wrapped_jacobian") as [j|]; [|destruct S; discriminate]. destruct (derivative_attr self "wrapped_hessian") as [s|]; [|destruct S; discriminate].
      intros H. exists (fst S), (snd S), j, s. split; [destruct vj, vs; reflexivity|]. split; [reflexivity|]. split; [reflexivity|]. destruct S as [aj ah]. cbn [bind] in H. injection H as <-. split; reflexivity. }
    destruct Hder as (aj & ah & j & s & Hst & HJ & HS & Hpj & Hps').
    apply (opt_of_attr (U:=U)) in HJ. apply (opt_of_attr (U:=U)) in HS.
    destruct (opened_read st _ a d Hd) as (Hread & Hat & Hoth). clear Hpb.
    assert (Hlen : a < List.length (opened st (given kw "options"))) by (apply nth_error_Some; congruence).
    set (st1 := write (opened st (given kw "options")) a (dset d "sparse_jacobian" OFalse)).
    assert (Hstore : nth_error st1 a = Some (dset d "sparse_jacobian" OFalse) /\ only_at st st1 a).
    { split; [apply write_at; exact Hlen|]. intros b Hb Hn. unfold st1. rewrite write_other by exact Hn. apply Hoth. exact Hb. }
    assert (Hopt : (if is_none (given kw "options") then ODict (List.length st) else given kw "options") = ODict a) by (destruct Hd as [(-> & -> & _)|(-> & _)]; reflexivity).
    set (kw1 := ("hessian", preferred (preferred (given kw "hessian") (derivative ah)) (derivative s)) :: ("jacobian", preferred (preferred (given kw "jacobian") (derivative aj)) (derivative j)) ::
                ("options", ODict a) :: ddel (ddel (ddel kw "jacobian") "hessian") "options").
    assert (H0 : one_call h (Obj (Concrete TrustConstr) self) st kw = exec_chain h (Concrete TrustConstr) self (tl (mro (Concrete TrustConstr))) st1 kw1).
    { unfold one_call. match goal with |- exec_chain _ _ _ ?L _ _ = _ => change L with (Concrete TrustConstr :: tl L) end. apply layer_trust; assumption. }
    revert H0. match goal with |- context [mro ?X] => let l := eval vm_compute in (mro X) in change (mro X) with l end. cbn [tl]. intros H0.
    rewrite (layer_hessian _ _ _ _ _ _ _ HS), (layer_gradient _ _ _ _ _ _ _ HJ), (layer_cons _ _ _ _ _ _ _ Hcons), (layer_bounds _ _ _ _ _ _ _ Hbo) in H0.
    assert (Hg : forall n, In n (passed_by ++ ["bounds"; "constraints"]) -> dget kw1 n = dget kw n).
    { intros n Hn. unfold kw1. cbn [dget]. rewrite !dget_ddel. unfold passed_by in Hn. cbn [app In] in Hn. repeat (destruct Hn as [<-|Hn]; [keysn; reflexivity|]). destruct Hn. }
    assert (Hr : forall n, reserved TrustConstr n = inb n (passed_by ++ ["bounds"; "constraints"])) by (intros n; reflexivity).
    assert (HX : forall n, In n (passed_by ++ ["bounds"; "constraints"]) -> dget kw n <> None -> conflicts TrustConstr kw) by (intros n Hn Hdn; apply (conflict_iff TrustConstr kw _ Hr); eauto).
    assert (Hc0 : dmem (("jacobian", preferred (given (("hessian", preferred (given kw1 "hessian") (derivative s)) :: ddel kw1 "hessian") "jacobian") (derivative j)) :: ddel (("hessian", preferred (given kw1 "hessian") (derivative s)) :: ddel kw1 "hessian") "jacobian") "constraints" = dmem kw "constraints").
    { rewrite !dmem_dget. cbn [dget]. rewrite dget_ddel. cbn [dget]. rewrite dget_ddel. keysn. rewrite (Hg "constraints") by (cbn; tauto). reflexivity. }
    rewrite Hc0 in H0. clear Hc0. rewrite dmem_dget in H0. destruct (dget kw "constraints") as [v|] eqn:Ec.
    { left. split; [apply (HX "constraints"); [cbn; tauto|congruence]|exact H0]. }
    match type of H0 with _ = if dmem ?K "bounds" then _ else _ => assert (Hb0 : dmem K "bounds" = dmem kw "bounds") end.
    { rewrite !dmem_dget. cbn [dget]. rewrite dget_ddel. cbn [dget]. rewrite dget_ddel. keysn. rewrite (Hg "bounds") by (cbn; tauto). reflexivity. }
    rewrite Hb0 in H0. clear Hb0. rewrite dmem_dget in H0. destruct (dget kw "bounds") as [v|] eqn:Eb.
    { left. split; [apply (HX "bounds"); [cbn; tauto|congruence]|exact H0]. }
    match type of H0 with _ = exec_chain _ _ _ (ScipyMinimize :: ?rest) ?S ?K =>
      destruct (calls_minimize h TrustConstr self rest S kw K f x0 (fun n => if eqb n "options" then Some (ODict a) else minimize_keywords TrustConstr pb kw n) Hf Hx) as [((n & Hn & Hdn) & Hc)|(Hno & k & Hc & Hk)] end.
    - intros n Hn. cbn [dget]. rewrite dget_ddel. cbn [dget]. rewrite dget_ddel. rewrite (Hg n) by (apply in_or_app; auto). destruct Hn as [<-|[<-|[<-|[<-|[<-|[]]]]]]; keysn; reflexivity.
    - intros n Hno.
      match goal with |- scipy_keywords _ ?K _ = _ =>
        assert (HK : forall m, dget K m = if eqb m "bounds" then Some (OBounds (map (fun p => (p_min (h p), p_max (h p))) ps)) else if eqb m "constraints" then Some (OCons (pb_cons pb)) else
          if eqb m "jacobian" then Some (preferred (given kw "jacobian") (derivative (or_else aj j))) else if eqb m "hessian" then Some (preferred (given kw "hessian") (derivative (or_else ah s))) else
          if eqb m "options" then Some (ODict a) else dget kw m) end.
      { intros m. clear - kw. cbn [dget]. unfold eqb. destruct (eq_dec m "bounds"); [reflexivity|]. destruct (eq_dec m "constraints"); [reflexivity|].
        destruct (eq_dec m "jacobian") as [->|N1].
        - assert (E : given (("hessian", preferred (given kw1 "hessian") (derivative s)) :: ddel kw1 "hessian") "jacobian" = preferred (preferred (given kw "jacobian") (derivative aj)) (derivative j)).
          { unfold given at 1. cbn [dget]. destruct (eq_dec "jacobian" "hessian") as [e|_]; [discriminate e|]. rewrite dget_ddel. destruct (eq_dec "jacobian" "hessian") as [e|_]; [discriminate e|]. reflexivity. }
          rewrite E. f_equal. destruct (given kw "jacobian"), aj, j; reflexivity.
        - rewrite dget_ddel. destruct (eq_dec m "jacobian"); [contradiction|]. cbn [dget]. destruct (eq_dec m "hessian") as [->|N2].
          + assert (E : given kw1 "hessian" = preferred (preferred (given kw "hessian") (derivative ah)) (derivative s)) by reflexivity. rewrite E. f_equal. destruct (given kw "hessian"), ah, s; reflexivity.
          + rewrite dget_ddel. destruct (eq_dec m "hessian"); [contradiction|]. unfold kw1. cbn [dget]. destruct (eq_dec m "hessian"); [contradiction|]. destruct (eq_dec m "jacobian"); [contradiction|].
            destruct (eq_dec m "options"); [reflexivity|]. rewrite !dget_ddel. destruct (eq_dec m "options"); [contradiction|]. destruct (eq_dec m "hessian"); [contradiction|]. destruct (eq_dec m "jacobian"); [contradiction|]. reflexivity. }
      match goal with |- scipy_keywords _ ?K _ = _ => generalize dependent K end. intros K HK0 HK.
      unfold scipy_keywords, minimize_keywords, box. rewrite Hlo, Hup, combine_maps, Hrt, Hpj, Hps'. cbn [routine_of uses_constraints method_name]. unfold given at 1 2 3 4, default. rewrite !HK. clear - kw.
      change (eqb "bounds" "bounds") with true. change (eqb "constraints" "bounds") with false. change (eqb "constraints" "constraints") with true. change (eqb "jacobian" "bounds") with false. change (eqb "jacobian" "constraints") with false.
      change (eqb "jacobian" "jacobian") with true. change (eqb "hessian" "bounds") with false. change (eqb "hessian" "constraints") with false. change (eqb "hessian" "jacobian") with false. change (eqb "hessian" "hessian") with true.
      change (eqb "tol" "bounds") with false. change (eqb "tol" "constraints") with false. change (eqb "tol" "jacobian") with false. change (eqb "tol" "hessian") with false. change (eqb "tol" "options") with false. cbv iota. unfold eqb.
      destruct (eq_dec n "options") as [->|No]; [reflexivity|].
      destruct (eq_dec n "method"); [reflexivity|]. destruct (eq_dec n "bounds"); [reflexivity|]. destruct (eq_dec n "constraints"); [reflexivity|]. destruct (eq_dec n "jac"); [reflexivity|]. destruct (eq_dec n "hess"); [reflexivity|].
      destruct (eq_dec n "tol"); [reflexivity|]. destruct (eq_dec n "jacobian"); [reflexivity|]. destruct (eq_dec n "hessian"); reflexivity.
    - left. split; [apply (HX n); [apply in_or_app; auto|exact Hdn]|]. rewrite H0. exact Hc.
    - right. split.
      + intros Hcf. apply (conflict_iff TrustConstr kw _ Hr) in Hcf as (n & Hn & Hdn). apply in_app_or in Hn as [Hn|Hn]; [apply Hdn, Hno; exact Hn|]. destruct Hn as [<-|[<-|[]]]; congruence.
      + exists st1, k. split; [rewrite H0, Hx0; exact Hc|]. split; [exact Hk|]. destruct Hstore as (Hs1 & Hs2). split; [exact Hs1|]. split; [exact Hs2|reflexivity].
  Qed.

  Theorem evolution_call h self st kw pb f : problem_of h (Obj (Concrete DifferentialEvolution) self) DNone DNone = Ok pb -> getattr self "objective" = Ok f ->
    (conflicts DifferentialEvolution kw /\ one_call h (Obj (Concrete DifferentialEvolution) self) st kw = Raise TypeError) \/
    (~ conflicts DifferentialEvolution kw /\ exists k, one_call h (Obj (Concrete DifferentialEvolution) self) st kw = Ok (st, {| ca_function := SDifferentialEvolution; ca_objective := f; ca_x0 := None; ca_kw := k |}) /\
      forall n, dget k n = evolution_keywords pb kw n).
  Proof using.
    intros Hpb Hf. destruct (problem_parts h DifferentialEvolution self _ _ pb Hpb) as [(ps & Hps & Hb1 & _) _ _ _]. destruct (Hb1 eq_refl) as (Hlo & Hup). clear Hb1 Hpb.
    assert (Hbo : bounds_opt (U:=U) h (Concrete DifferentialEvolution) self = Ok (OBounds (map (fun p => (p_min (h p), p_max (h p))) ps))) by (unfold bounds_opt, bounds_of; rewrite Hps; reflexivity).
    assert (Hr : forall n, reserved DifferentialEvolution n = inb n ["func"; "bounds"]) by (intros n; reflexivity).
    openmro. cbn [exec_chain take]. rewrite Hf. cbn [bind]. rewrite Hbo. cbn [bind].
    match goal with |- context [not_again ?K _] => assert (Hk : forall n, In n ["func"; "bounds"] -> dget K n = dget kw n) end.
    { intros n [<-|[<-|[]]]; cbn [dupdate fold_left fst snd]; rewrite !dget_dset, !dget_ddel; keysn; reflexivity. }
    destruct (dget kw "func") as [v|] eqn:E1.
    { left. split; [apply (conflict_iff _ kw _ Hr); exists "func"; split; [cbn; tauto|congruence]|]. rewrite (not_again_bad _ _ "func"); [reflexivity|cbn; tauto|]. rewrite Hk by (cbn; tauto). congruence. }
    rewrite not_again_ok by (intros n [<-|[]]; rewrite Hk by (cbn; tauto); exact E1). cbn [bind].
    destruct (dget kw "bounds") as [v|] eqn:E2.
    { left. split; [apply (conflict_iff _ kw _ Hr); exists "bounds"; split; [cbn; tauto|congruence]|]. rewrite also_bad; [reflexivity|]. rewrite Hk by (cbn; tauto). congruence. }
    rewrite also_ok by (rewrite Hk by (cbn; tauto); exact E2). cbn [bind].
    right. split. { intros Hc. apply (conflict_iff _ kw _ Hr) in Hc as (n & [<-|[<-|[]]] & Hc); congruence. }
    eexists. split; [reflexivity|]. intros n. unfold evolution_keywords, default, box. rewrite Hlo, Hup, combine_maps. cbn [option_map dget dupdate fold_left fst snd]. rewrite !dget_dset, !dget_ddel.
    keysn; reflexivity.
  Qed.

  Theorem minpack_call h self st kw pb f : problem_of h (Obj (Concrete MINPACK) self) DNone DNone = Ok pb -> getattr self "objective" = Ok f ->
    (falsy (given kw "jacobian") = true -> given kw "jacobian" = ONone) -> (forall v, dget kw "method" = Some v -> falsy v = false) ->
    (conflicts MINPACK kw /\ one_call h (Obj (Concrete MINPACK) self) st kw = Raise TypeError) \/
    (~ conflicts MINPACK kw /\ exists k, one_call h (Obj (Concrete MINPACK) self) st kw = Ok (st, {| ca_function := SLeastSquares; ca_objective := f; ca_x0 := pb_x0 pb; ca_kw := k |}) /\
      forall n, dget k n = least_squares_keywords pb kw n).
  Proof using.
    intros Hpb Hf Hj1 Hm. destruct (problem_parts h MINPACK self _ _ pb Hpb) as [(ps & Hps & Hb1 & _) (x0 & Hx & Hx0) _ _]. destruct (Hb1 eq_refl) as (Hlo & Hup). specialize (Hx0 ltac:(discriminate)).
    assert (Hbo : bounds_opt (U:=U) h (Concrete MINPACK) self = Ok (OBounds2 (map (fun p => p_min (h p)) ps) (map (fun p => p_max (h p)) ps))).
    { unfold bounds_opt, bounds_of; rewrite Hps. cbn [bind]. rewrite !map_map. reflexivity. }
    assert (HJ : exists j, derivative_attr self "wrapped_jacobian" = Ok j /\ pb_jac pb = or_else j DCs).
    { revert Hpb. unfold problem_of. rewrite Hps. cbn [bind]. rewrite Hx. cbn [bind]. match goal with |- context [bind ?X _] => destruct X as [w|]; [|discriminate] end. cbn [bind].
      destruct (derivative_attr self "wrapped_jacobian") as [j|]; [|discriminate]. cbn [bind]. intros H. injection H as <-. exists j. split; reflexivity. }
    destruct HJ as (j & HJ & Hpj).
    assert (Hjf : falsy (derivative (U:=U) j) = match j with DNone => true | _ => false end) by (destruct j; reflexivity).
    apply (opt_of_attr (U:=U)) in HJ. clear Hpb Hb1.
    assert (Hr : forall n, reserved MINPACK n = inb n ["fun"; "x0"; "jac"; "bounds"]) by (intros n; reflexivity).
    assert (HX : forall n, In n ["fun"; "x0"; "jac"; "bounds"] -> dget kw n <> None -> conflicts MINPACK kw) by (intros n Hn Hdn; apply (conflict_iff MINPACK kw _ Hr); eauto).
    openmro. cbn [exec_chain take]. rewrite HJ. cbn [bind]. rewrite Hbo. cbn [bind]. rewrite Hf, Hx. cbn [bind].
    assert (Hk : forall n, In n ["fun"; "x0"; "jac"; "bounds"] -> dget (ddel (ddel kw "jacobian") "method") n = dget kw n).
    { intros n Hn. rewrite !dget_ddel. destruct Hn as [<-|[<-|[<-|[<-|[]]]]]; keysn; reflexivity. }
    destruct (dget kw "fun") as [v|] eqn:E1.
    { left. split; [apply (HX "fun"); [cbn; tauto|congruence]|]. rewrite (not_again_bad _ _ "fun"); [reflexivity|cbn; tauto|]. rewrite Hk by (cbn; tauto). congruence. }
    destruct (dget kw "x0") as [v|] eqn:E2.
    { left. split; [apply (HX "x0"); [cbn; tauto|congruence]|]. rewrite (not_again_bad _ _ "x0"); [reflexivity|cbn; tauto|]. rewrite Hk by (cbn; tauto). congruence. }
    rewrite not_again_ok by (intros n [<-|[<-|[]]]; rewrite Hk by (cbn; tauto); assumption). cbn [bind].
    destruct (dget kw "jac") as [v|] eqn:E3.
    { left. split; [apply (HX "jac"); [cbn; tauto|congruence]|]. rewrite also_bad; [reflexivity|]. rewrite Hk by (cbn; tauto). congruence. }
    rewrite also_ok by (rewrite Hk by (cbn; tauto); exact E3). cbn [bind].
    destruct (dget kw "bounds") as [v|] eqn:E4.
    { left. split; [apply (HX "bounds"); [cbn; tauto|congruence]|]. rewrite also_bad; [reflexivity|]. cbn [dget]. keysn. rewrite Hk by (cbn; tauto). congruence. }
    rewrite also_ok by (cbn [dget]; keysn; rewrite Hk by (cbn; tauto); exact E4). cbn [bind].
    rewrite also_ok by (cbn [dget]; rewrite !dget_ddel; keysn; reflexivity). cbn [bind].
    right. split. { intros Hc. apply (conflict_iff _ kw _ Hr) in Hc as (n & [<-|[<-|[<-|[<-|[]]]]] & Hc); congruence. }
    eexists. split; [rewrite Hx0; reflexivity|]. intros n. unfold least_squares_keywords, default. rewrite Hlo, Hup, Hpj. cbn [dget]. rewrite !dget_ddel. fold (given kw "jacobian").
    keysn; try reflexivity.
    - destruct (dget kw "method") as [v|]; [|reflexivity]. unfold or_default. rewrite (Hm v eq_refl). reflexivity.
    - f_equal. unfold or_default. rewrite if_none_preferred. destruct (falsy (given kw "jacobian")) eqn:Ef.
      + rewrite (Hj1 eq_refl). cbn [preferred]. rewrite Hjf. destruct j; reflexivity.
      + assert (Hp : preferred (given kw "jacobian") (derivative j) = given kw "jacobian") by (destruct (given kw "jacobian"); try reflexivity; discriminate).
        rewrite Hp, Ef. destruct (given kw "jacobian"); try reflexivity; discriminate.
  Qed.
End Main.
