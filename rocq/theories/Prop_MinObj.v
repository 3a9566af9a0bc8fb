(** * C78: minimizers are created with what they support, and pickled minimizers behave like the original. *)
From Coq Require Import Reals Lia.
From Verif Require Import PyBase PyFacts Signature SignatureFacts Expr NumPy Model Objective Minimizer MinSpec MinLemmas MinObj MinObjSpec MinObjFacts MinObjMain MinObjCopy MinObjThm MinObjNew.
Local Open Scope string_scope.
Local Open Scope list_scope.

(** ** C78.  A keyword the algorithm cannot use is an error .. *)
Theorem C78_unsupported_rejected : forall {raw} (wrap : list sym -> raw -> res fn) h c objective ps kw k, c <> BasinHopping ->
  dmem kw k = true -> ~ supports c k -> new wrap h (Concrete c) [objective; VParams ps] kw = Raise TypeError.
Proof. intros raw wrap h c ov ps kw k. apply unsupported_rejected. Qed.

(** .. the others mean what they say: the object hands to scipy the problem of these derivatives and constraints .. *)
Theorem C78_creation : forall {raw} (wrap : list sym -> raw -> res fn) h c objective ps kw o, c <> BasinHopping ->
  new wrap h (Concrete c) [objective; VParams ps] kw = Ok o ->
  (forall k, dmem kw k = true -> supports c k) /\
  exists f jac hess cons mn,
    function_of wrap ps (Some objective) (Some f) /\ function_of wrap ps (dget kw "jacobian") jac /\
    function_of wrap ps (dget kw "hessian") hess /\ constraints_of (dget kw "constraints") cons /\
    dget (attrs_of o) "objective" = Some (VObjective f) /\ dget (attrs_of o) "parameters" = Some (VParams ps) /\ class_of o = Concrete c /\
    minimizer_init h c ps jac hess cons = Ok mn /\
    (forall h' uj uh, problem_of h' o uj uh = Ok (execute_problem h' mn uj uh)) /\
    (* also after [o.initial_guesses = g] *)
    (forall g h' uj uh, problem_of h' (set_guesses o g) uj uh = Ok (execute_problem h' (with_guess mn (Some g)) uj uh)).
Proof. intros raw wrap h c ov ps kw o. apply created. Qed.

(** .. and BasinHopping takes a minimizer, or creates one of the given class, by default BFGS, with its objective and parameters. *)
Theorem C78_basin_hopping_creation : forall {raw} (wrap : list sym -> raw -> res fn) h objective ps kw o,
  new wrap h (Concrete BasinHopping) [objective; VParams ps] kw = Ok o ->
  (forall k, dmem kw k = true -> supports BasinHopping k) /\
  exists f local mn,
    function_of wrap ps (Some objective) (Some f) /\ dget (attrs_of o) "objective" = Some (VObjective f) /\ dget (attrs_of o) "parameters" = Some (VParams ps) /\
    class_of o = Concrete BasinHopping /\ dget (attrs_of o) "local_minimizer" = Some (VMin local) /\
    match dget kw "local_minimizer" with
    | None => new wrap h (Concrete BFGS) [VObjective f; VParams ps] [] = Ok local
    | Some (VClass c) => new wrap h (Concrete c) [VObjective f; VParams ps] [] = Ok local
    | Some (VMin m) => local = m
    | _ => False
    end /\
    minimizer_init h BasinHopping ps None None [] = Ok mn /\ (forall h' uj uh, problem_of h' o uj uh = Ok (execute_problem h' mn uj uh)).
Proof. intros raw wrap h ov ps kw o. apply created_basin. Qed.

(** A chain keeps its minimizers; its signature has a name for each. *)
Theorem C78_chain_creation : forall {raw} (wrap : list sym -> raw -> res fn) h objective ps kw o,
  new wrap h ChainedMinimizer [objective; VParams ps] kw = Ok o ->
  (forall k, dmem kw k = true -> k = "minimizers") /\
  exists f l s, function_of wrap ps (Some objective) (Some f) /\ dget kw "minimizers" = Some (VMins l) /\ class_of o = ChainedMinimizer /\
    dget (attrs_of o) "objective" = Some (VObjective f) /\ dget (attrs_of o) "parameters" = Some (VParams ps) /\ dget (attrs_of o) "minimizers" = Some (VMins l) /\
    chain_signature (map (fun o => py_name (class_of o)) l) = Ok s /\ dget (attrs_of o) "__signature__" = Some (VSignature s).
Proof. intros raw wrap h ov ps kw o. apply created_chain. Qed.

(** A pickled and unpickled minimizer poses the same problems as the original, whatever the values and bounds of the parameters have become
    (in [h], or later), and so do the minimizers it consists of; this can be repeated. *)
Theorem C78_pickle : forall {raw} (wrap : list sym -> raw -> res fn) fixed o h, reached wrap fixed o -> fixes h fixed ->
  exists o', copy wrap h o = Ok o' /\ reached wrap fixed o' /\ alike o o'.
Proof. intros raw wrap fixed o h. apply copy_alike. Qed.

(** ** An example: a chain of a minimizer with a jacobian that is a plain callable and BasinHopping with a local minimizer *)
Definition mo_wrap (ps : list sym) (f : fn) : res fn := Ok f.
Definition mo_ps : list sym := [SPar "a"; SPar "b"].
Example C78_example : forall (h : heap) (f g : fn),
  exists slsqp local basin chain chain',
    new mo_wrap h (Concrete SLSQP) [VFun f; VParams mo_ps] [("jacobian", VFun g); ("constraints", VNone)] = Ok slsqp /\
    new mo_wrap h (Concrete LBFGSB) [VFun f; VParams mo_ps] [("jacobian", VFun g)] = Ok local /\
    new mo_wrap h (Concrete BasinHopping) [VFun f; VParams mo_ps] [("local_minimizer", VMin local)] = Ok basin /\
    new mo_wrap h ChainedMinimizer [VFun f; VParams mo_ps] [("minimizers", VMins [basin; set_guesses slsqp [1%R; 2%R]])] = Ok chain /\
    reached mo_wrap (fun p => p_fixed (h p)) chain /\
    copy mo_wrap h chain = Ok chain' /\ alike chain chain' /\ chain_length chain' = 2 /\ dget (attrs_of chain') "__signature__" = dget (attrs_of chain) "__signature__" /\
    supports SLSQP "jacobian" /\ ~ supports NelderMead "jacobian".
Proof.
  intros h f g.
  assert (H1 : exists o, new mo_wrap h (Concrete SLSQP) [VFun f; VParams mo_ps] [("jacobian", VFun g); ("constraints", VNone)] = Ok o) by (eexists; reflexivity).
  assert (H2 : exists o, new mo_wrap h (Concrete LBFGSB) [VFun f; VParams mo_ps] [("jacobian", VFun g)] = Ok o) by (eexists; reflexivity).
  destruct H1 as (slsqp & H1). destruct H2 as (local & H2).
  assert (Hc2 : class_of local = Concrete LBFGSB).
  { apply C78_creation in H2 as (_ & ? & ? & ? & ? & ? & H2); [|discriminate]. decompose [and] H2. assumption. }
  assert (Hc1 : class_of slsqp = Concrete SLSQP).
  { clear -H1. apply C78_creation in H1 as (_ & ? & ? & ? & ? & ? & H1); [|discriminate]. decompose [and] H1. assumption. }
  destruct local as [cl dl]. cbn [class_of] in Hc2. subst cl. destruct slsqp as [cs ds]. cbn [class_of] in Hc1. subst cs.
  assert (H3 : exists o, new mo_wrap h (Concrete BasinHopping) [VFun f; VParams mo_ps] [("local_minimizer", VMin (Obj (Concrete LBFGSB) dl))] = Ok o) by (eexists; reflexivity).
  destruct H3 as (basin & H3).
  assert (Hc3 : class_of basin = Concrete BasinHopping).
  { clear -H3. apply C78_basin_hopping_creation in H3 as (_ & ? & ? & ? & H3). decompose [and] H3. assumption. }
  destruct basin as [cb db]. cbn [class_of] in Hc3. subst cb.
  assert (H4 : exists o, new mo_wrap h ChainedMinimizer [VFun f; VParams mo_ps] [("minimizers", VMins [Obj (Concrete BasinHopping) db; set_guesses (Obj (Concrete SLSQP) ds) [1%R; 2%R]])] = Ok o) by (eexists; reflexivity).
  destruct H4 as (chain & H4).
  assert (Hh : fixes h (fun p => p_fixed (h p))) by (intros p; reflexivity).
  assert (R1 : reached mo_wrap (fun p => p_fixed (h p)) (Obj (Concrete SLSQP) ds)).
  { eapply reached_new; [exact Hh| | |exact H1|left; eauto].
    - intros k m Hk. cbn in Hk. repeat match goal with H : context [eq_dec ?a ?b] |- _ => destruct (eq_dec a b) end; discriminate.
    - intros k l m Hk. cbn in Hk. repeat match goal with H : context [eq_dec ?a ?b] |- _ => destruct (eq_dec a b) end; discriminate. }
  assert (R2 : reached mo_wrap (fun p => p_fixed (h p)) (Obj (Concrete LBFGSB) dl)).
  { eapply reached_new; [exact Hh| | |exact H2|left; eauto].
    - intros k m Hk. cbn in Hk. repeat match goal with H : context [eq_dec ?a ?b] |- _ => destruct (eq_dec a b) end; discriminate.
    - intros k l m Hk. cbn in Hk. repeat match goal with H : context [eq_dec ?a ?b] |- _ => destruct (eq_dec a b) end; discriminate. }
  assert (R3 : reached mo_wrap (fun p => p_fixed (h p)) (Obj (Concrete BasinHopping) db)).
  { eapply reached_new; [exact Hh| | |exact H3|left; eauto].
    - intros k m Hk. cbn [dget] in Hk. destruct (eq_dec k "local_minimizer"); [|discriminate]. injection Hk as <-. exact R2.
    - intros k l m Hk. cbn [dget] in Hk. destruct (eq_dec k "local_minimizer"); discriminate. }
  assert (R4 : reached mo_wrap (fun p => p_fixed (h p)) chain).
  { eapply reached_new; [exact Hh| | |exact H4|right; reflexivity].
    - intros k m Hk. cbn [dget] in Hk. destruct (eq_dec k "minimizers"); discriminate.
    - intros k l m Hk. cbn [dget] in Hk. destruct (eq_dec k "minimizers"); [|discriminate]. injection Hk as <-. intros [<-|[<-|[]]]; [exact R3|]. exact (reached_guess _ _ _ [1%R; 2%R] R1). }
  destruct (C78_pickle mo_wrap _ chain h R4 Hh) as (chain' & Hcopy & _ & Ha).
  exists (Obj (Concrete SLSQP) ds), (Obj (Concrete LBFGSB) dl), (Obj (Concrete BasinHopping) db), chain, chain'.
  split; [exact H1|]. split; [exact H2|]. split; [exact H3|]. split; [exact H4|]. split; [exact R4|]. split; [exact Hcopy|]. split; [exact Ha|].
  assert (Hlen : chain_length chain = 2).
  { destruct (C78_chain_creation _ _ _ _ _ _ H4) as (_ & f' & l & s & _ & Hl & _ & _ & _ & Hd & _). cbn in Hl. injection Hl as <-. unfold chain_length. rewrite Hd. reflexivity. }
  inversion Ha as [? ? _ _ _ _ _ Hsig _ Hmins]; subst. split.
  { unfold chain_length in *. inversion Hmins as [E1 E2|? ? ? E1 E2|l l' HL _ E1 E2].
    - rewrite <- E1 in Hlen. discriminate.
    - rewrite <- E1 in Hlen. discriminate.
    - rewrite <- E1 in Hlen. lia. }
  split; [symmetry; exact Hsig|]. split; [left; split; reflexivity|]. intros [[_ H]|[[H _]|[[H _]|[H _]]]]; discriminate.
Qed.

(** What does not hold: the parameters a minimizer varies are chosen when it is created, and again when it is unpickled. *)
Theorem C78_fixed_later_refuted : exists (h h' : heap) (f : fn) o o',
  new mo_wrap h (Concrete BFGS) [VFun f; VParams mo_ps] [] = Ok o /\ copy mo_wrap h' o = Ok o' /\
  (forall p, p_value (h p) = p_value (h' p) /\ p_min (h p) = p_min (h' p) /\ p_max (h p) = p_max (h' p)) /\
  problem_of h' o DNone DNone <> problem_of h' o' DNone DNone.
Proof.
  set (mk := fun (b : bool) (p : sym) => {| p_value := 0%R; p_min := None; p_max := None; p_fixed := b |}).
  assert (H : forall f : fn, exists o o', new mo_wrap (mk false) (Concrete BFGS) [VFun f; VParams mo_ps] [] = Ok o /\ copy mo_wrap (mk true) o = Ok o' /\
    (exists p p', problem_of (mk true) o DNone DNone = Ok p /\ problem_of (mk true) o' DNone DNone = Ok p' /\ option_map (@List.length R) (pb_x0 p) <> option_map (@List.length R) (pb_x0 p'))).
  { intros f. eexists _, _. split; [reflexivity|]. split; [reflexivity|]. eexists _, _. split; [reflexivity|]. split; [reflexivity|]. cbn. discriminate. }
  destruct (H (fun _ => Raise TypeError)) as (o & o' & H1 & H2 & p & p' & H3 & H4 & H5).
  exists (mk false), (mk true), (fun _ => Raise TypeError), o, o'. split; [exact H1|]. split; [exact H2|]. split; [intros q; auto|].
  rewrite H3, H4. intros E. injection E as ->. contradiction.
Qed.
