(** * C79: the options given to [execute]. *)
From Coq Require Import Reals Lia.
From Verif Require Import PyBase PyFacts Signature SignatureFacts Expr NumPy Model Objective Minimizer MinSpec MinObj MinObjSpec MinExec MinExecSpec MinExecFacts MinExecMain MinExecBasin MinExecAgain MinExecChain MinExecRun Prop_MinObj.
Local Open Scope string_scope.
Local Open Scope list_scope.

(** [pb] is the problem the minimizer poses without options (C70, C78).  [execute] with the keywords [kw] raises TypeError if one of them is what
    symfit passes itself; else scipy is called once, with exactly these keywords. *)
Theorem C79_minimize_options : forall {raw U} h c self (st : store U) kw pb f,
  In c [BFGS; SLSQP; COBYLA; LBFGSB; NelderMead; Powell] ->
  problem_of (raw:=raw) h (Obj (Concrete c) self) DNone DNone = Ok pb -> dget self "objective" = Some f ->
  (conflicts c kw /\ one_call h (Obj (Concrete c) self) st kw = Raise TypeError) \/
  (~ conflicts c kw /\ exists k, one_call h (Obj (Concrete c) self) st kw = Ok (st, {| ca_function := SMinimize; ca_objective := f; ca_x0 := pb_x0 pb; ca_kw := k |}) /\
    forall n, dget k n = minimize_keywords c pb kw n).
Proof.
  intros raw U h c self st kw pb f Hc Hpb Hf. apply minimize_call; [| | | |exact Hpb|unfold getattr; rewrite Hf; reflexivity]; intros ->; cbn in Hc; decompose [or] Hc; try discriminate; assumption.
Qed.

(** TrustConstr also tells scipy that the Jacobian is dense, in the dictionary [options] of the user. *)
Theorem C79_trust_constr_options : forall {raw U} h self (st : store U) kw pb f a d,
  problem_of (raw:=raw) h (Obj (Concrete TrustConstr) self) DNone DNone = Ok pb -> dget self "objective" = Some f ->
  dict_for st (given kw "options") a d ->
  (conflicts TrustConstr kw /\ one_call h (Obj (Concrete TrustConstr) self) st kw = Raise TypeError) \/
  (~ conflicts TrustConstr kw /\ exists st' k, one_call h (Obj (Concrete TrustConstr) self) st kw = Ok (st', {| ca_function := SMinimize; ca_objective := f; ca_x0 := pb_x0 pb; ca_kw := k |}) /\
    (forall n, dget k n = if eqb n "options" then Some (ODict a) else minimize_keywords TrustConstr pb kw n) /\
    (exists d', nth_error st' a = Some d' /\ forall n, dget d' n = if eqb n "sparse_jacobian" then Some OFalse else dget d n) /\ only_at st st' a).
Proof.
  intros raw U h self st kw pb f a d Hpb Hf Hd. destruct (trust_call h self st kw pb f a d Hpb) as [H|(Hn & st' & k & H1 & H2 & H3 & H4 & _)]; [unfold getattr; rewrite Hf; reflexivity|exact Hd|left; exact H|right].
  split; [exact Hn|]. exists st', k. split; [exact H1|]. split; [exact H2|]. split; [|exact H4]. exists (dset d "sparse_jacobian" OFalse). split; [exact H3|]. intros n. rewrite dget_dset. unfold eqb. destruct (eq_dec n "sparse_jacobian"); reflexivity.
Qed.

Theorem C79_differential_evolution_options : forall {raw U} h self (st : store U) kw pb f,
  problem_of (raw:=raw) h (Obj (Concrete DifferentialEvolution) self) DNone DNone = Ok pb -> dget self "objective" = Some f ->
  (conflicts DifferentialEvolution kw /\ one_call h (Obj (Concrete DifferentialEvolution) self) st kw = Raise TypeError) \/
  (~ conflicts DifferentialEvolution kw /\ exists k, one_call h (Obj (Concrete DifferentialEvolution) self) st kw = Ok (st, {| ca_function := SDifferentialEvolution; ca_objective := f; ca_x0 := None; ca_kw := k |}) /\
    forall n, dget k n = evolution_keywords pb kw n).
Proof. intros raw U h self st kw pb f Hpb Hf. apply evolution_call; [exact Hpb|unfold getattr; rewrite Hf; reflexivity]. Qed.

Theorem C79_minpack_options : forall {raw U} h self (st : store U) kw pb f,
  problem_of (raw:=raw) h (Obj (Concrete MINPACK) self) DNone DNone = Ok pb -> dget self "objective" = Some f ->
  (falsy (given kw "jacobian") = true -> given kw "jacobian" = ONone) -> (forall v, dget kw "method" = Some v -> falsy v = false) ->
  (conflicts MINPACK kw /\ one_call h (Obj (Concrete MINPACK) self) st kw = Raise TypeError) \/
  (~ conflicts MINPACK kw /\ exists k, one_call h (Obj (Concrete MINPACK) self) st kw = Ok (st, {| ca_function := SLeastSquares; ca_objective := f; ca_x0 := pb_x0 pb; ca_kw := k |}) /\
    forall n, dget k n = least_squares_keywords pb kw n).
Proof. intros raw U h self st kw pb f Hpb Hf. apply minpack_call; [exact Hpb|unfold getattr; rewrite Hf; reflexivity]. Qed.

(** BasinHopping passes the options on; [minimizer_kwargs] keeps what the user put into it, and gets the rest from the local minimizer, whose problem is [lpb]. *)
Theorem C79_basin_hopping_options : forall {raw U} h self (st : store U) kw pb f c sl lpb a d,
  problem_of (raw:=raw) h (Obj (Concrete BasinHopping) self) DNone DNone = Ok pb -> dget self "objective" = Some f ->
  dget self "local_minimizer" = Some (VMin (Obj (Concrete c) sl)) -> In c [BFGS; SLSQP; COBYLA; LBFGSB; NelderMead; Powell] -> problem_of h (Obj (Concrete c) sl) DNone DNone = Ok lpb ->
  kwargs_for st kw a d ->
  (conflicts BasinHopping kw /\ one_call h (Obj (Concrete BasinHopping) self) st kw = Raise TypeError) \/
  (~ conflicts BasinHopping kw /\ exists st' k d', one_call h (Obj (Concrete BasinHopping) self) st kw = Ok (st', {| ca_function := SBasinHopping; ca_objective := f; ca_x0 := pb_x0 pb; ca_kw := k |}) /\
    (forall n, dget k n = if eqb n "minimizer_kwargs" then Some (ODict a) else dget kw n) /\
    nth_error st' a = Some d' /\ (forall n, dget d' n = match dget d n with Some v => Some v | None => local_keywords c lpb n end) /\ only_at st st' a).
Proof.
  intros raw U h self st kw pb f c sl lpb a d Hpb Hf Hl Hc Hlpb Hk.
  destruct (basin_call h self st kw pb f c sl lpb a d Hpb) as [H|(Hn & st' & k & d' & H1 & H2 & H3 & H4 & H5 & _)].
  - unfold getattr. rewrite Hf. reflexivity.
  - unfold getattr. rewrite Hl. reflexivity.
  - cbn in Hc. decompose [or] Hc; subst; reflexivity || contradiction.
  - exact Hlpb.
  - exact Hk.
  - left. exact H.
  - right. split; [exact Hn|]. exists st', k, d'. auto.
Qed.

(** Executing a minimizer again, with the same options, calls scipy with the same problem and options.  So the answer is the same if scipy's is. *)
Theorem C79_execute_again : forall {raw U} (scipy : seen_call raw U -> res answer) n h o (st : store U) kw r,
  class_of o <> ChainedMinimizer -> (forall m a, dget kw m = Some (ODict a) -> a < List.length st) -> NoDup (dkeys kw) ->
  run scipy n h o st kw = Ok r ->
  exists r', run scipy n h (oc_object r) (oc_store r) kw = Ok r' /\ oc_calls r' = oc_calls r /\ oc_answer r' = oc_answer r /\ oc_object r' = oc_object r.
Proof. intros raw U scipy n h o st kw r. apply execute_again. Qed.

(** .. and so does a chain, although its minimizers keep the initial guesses of the last execution. *)
Theorem C79_chain_execute_again : forall {raw U} (scipy : seen_call raw U -> res answer) n h self (st : store U) kw r l s,
  dget self "minimizers" = Some (VMins l) -> (forall m, In m l -> class_of m <> ChainedMinimizer) ->
  dget self "__signature__" = Some (VSignature s) -> chain_signature (map (fun o => py_name (class_of o)) l) = Ok s ->
  apart st kw -> run scipy n h (Obj ChainedMinimizer self) st kw = Ok r ->
  exists r', run scipy n h (oc_object r) (oc_store r) kw = Ok r' /\ oc_calls r' = oc_calls r /\ oc_answer r' = oc_answer r /\ oc_object r' = oc_object r.
Proof. intros raw U scipy n h self st kw r l s. apply chain_execute_again. Qed.

(** What executing a chain does: each minimizer calls scipy once, in order, with its own options, starting at what the minimizer before reports; the answer is that of the
    last one, the iterations add up. *)
Theorem C79_chain_execute : forall {raw U} (scipy : seen_call raw U -> res answer) n h self (st : store U) kw r l s,
  dget self "minimizers" = Some (VMins l) -> (forall m, In m l -> exists c, class_of m = Concrete c) ->
  dget self "__signature__" = Some (VSignature s) -> chain_signature (map (fun o => py_name (class_of o)) l) = Ok s ->
  apart st kw -> run scipy n h (Obj ChainedMinimizer self) st kw = Ok r ->
  exists first answers final, guesses h self = Ok first /\ List.length (oc_calls r) = List.length l /\ List.length answers = List.length l /\
    (forall k m name c, nth_error l k = Some m -> nth_error (chain_names (map (fun o => py_name (class_of o)) l)) k = Some name -> nth_error (oc_calls r) k = Some c ->
      (exists a, nth_error answers k = Some a /\ scipy c = Ok a) /\
      exists g stk stk' ck, starts h l answers first k g /\ se_x0 c = match class_of m with Concrete DifferentialEvolution => None | _ => Some g end /\
        (forall b, uses (own_options st kw name) b -> nth_error stk b = nth_error st b) /\
        one_call h (set_guesses m g) stk (own_options st kw name) = Ok (stk', ck) /\ c = see stk' ck) /\
    nth_error answers (List.length l - 1) = Some final /\ an_x (oc_answer r) = an_x final /\
    exists ns, map an_nit answers = map Some ns /\ an_nit (oc_answer r) = Some (list_sum ns).
Proof. intros raw U scipy n h self st kw r l s. apply chain_execute. Qed.

(** ** Examples *)
Definition me_heap : heap := fun p => {| p_value := 1; p_min := Some 0%R; p_max := None; p_fixed := false |}.
(** scipy, for the examples: it answers with its starting point. *)
Definition me_scipy (c : seen_call fn unit) : res answer := Ok {| an_x := match se_x0 c with Some x => x | None => [2%R] end; an_nit := Some 3 |}.
Definition me_kw : options unit := [("BasinHopping", ODict 0); ("BFGS", ODict 2)].
Definition me_store : store unit := [[("niter", ONumber 7); ("minimizer_kwargs", ODict 1)]; [("method", OText "Powell")]; [("tol", OUser tt)]].

Example C79_example : forall (f g : fn),
  exists slsqp pb, new mo_wrap me_heap (Concrete SLSQP) [VFun f; VParams mo_ps] [("jacobian", VFun g)] = Ok slsqp /\
    problem_of me_heap slsqp DNone DNone = Ok pb /\ dget (attrs_of slsqp) "objective" = Some (VObjective f) /\ class_of slsqp = Concrete SLSQP /\
    ~ conflicts SLSQP [("tol", OUser tt); ("callback", OUser tt)] /\ conflicts SLSQP [("bounds", OUser tt)] /\
    minimize_keywords SLSQP pb [("tol", OUser tt); ("callback", OUser tt)] "tol" = Some (OUser tt) /\
    minimize_keywords SLSQP pb [("tol", OUser tt); ("callback", OUser tt)] "callback" = Some (OUser tt) /\
    minimize_keywords SLSQP pb [("tol", OUser tt)] "bounds" = Some (OBounds [(Some 0%R, None); (Some 0%R, None)]) /\
    minimize_keywords SLSQP pb [("tol", OUser tt)] "method" = Some (OText "SLSQP").
Proof.
  intros f g.
  assert (H : exists d, new mo_wrap me_heap (Concrete SLSQP) [VFun f; VParams mo_ps] [("jacobian", VFun g)] = Ok (Obj (Concrete SLSQP) d)) by (eexists; reflexivity).
  destruct H as (d & H). exists (Obj (Concrete SLSQP) d).
  destruct (C78_creation mo_wrap me_heap SLSQP (VFun f) mo_ps _ _ ltac:(discriminate) H) as (_ & f' & j & hs & cs & mn & Hf & Hj & Hh & Hcs & Ho & Hp & Hc & Hmn & Hpb & _).
  destruct Hf as (f0 & Hf0 & Ef). injection Ef as ->. unfold mo_wrap in Hf0. injection Hf0 as <-.
  cbn in Hj. destruct Hj as (g0 & Hg0 & ->). cbn in Hh. subst hs. cbn in Hcs. subst cs. injection Hmn as <-.
  eexists. split; [exact H|]. split; [apply Hpb|]. split; [exact Ho|]. split; [reflexivity|]. split.
  { intros (n & Hn & Hr). cbn in Hn. unfold reserved in Hr. apply inb_In in Hr. unfold dmem in Hn. destruct Hr as [<-|[<-|[<-|[<-|[<-|[<-|[<-|[]]]]]]]]; discriminate Hn. }
  split; [exists "bounds"; split; reflexivity|].
  split; [reflexivity|]. split; [reflexivity|]. split; reflexivity.
Qed.

(** The chain of C79_chain_execute_again and C79_chain_execute: its options have a nested dictionary, which BasinHopping completes. *)
Example C79_chain_example : forall (f : fn),
  exists self l s r, new mo_wrap me_heap ChainedMinimizer [VFun f; VParams mo_ps] [("minimizers", VMins l)] = Ok (Obj ChainedMinimizer self) /\
    dget self "minimizers" = Some (VMins l) /\ (forall m, In m l -> exists c, class_of m = Concrete c) /\
    dget self "__signature__" = Some (VSignature s) /\ chain_signature (map (fun o => py_name (class_of o)) l) = Ok s /\ List.length l = 2 /\
    apart me_store me_kw /\ run me_scipy 2 me_heap (Obj ChainedMinimizer self) me_store me_kw = Ok r /\ List.length (oc_calls r) = 2 /\ nth_error (oc_store r) 1 <> nth_error me_store 1.
Proof.
  intros f.
  assert (H1 : exists d, new mo_wrap me_heap (Concrete BasinHopping) [VFun f; VParams mo_ps] [] = Ok (Obj (Concrete BasinHopping) d)) by (eexists; reflexivity).
  assert (H2 : exists d, new mo_wrap me_heap (Concrete BFGS) [VFun f; VParams mo_ps] [] = Ok (Obj (Concrete BFGS) d)) by (eexists; reflexivity).
  destruct H1 as (d1 & H1). destruct H2 as (d2 & H2).
  assert (H3 : exists d, new mo_wrap me_heap ChainedMinimizer [VFun f; VParams mo_ps] [("minimizers", VMins [Obj (Concrete BasinHopping) d1; Obj (Concrete BFGS) d2])] = Ok (Obj ChainedMinimizer d)) by (eexists; reflexivity).
  destruct H3 as (d3 & H3). exists d3, [Obj (Concrete BasinHopping) d1; Obj (Concrete BFGS) d2].
  destruct (C78_chain_creation mo_wrap me_heap _ _ _ _ H3) as (_ & f' & l & s & _ & Hl & _ & _ & _ & Hm & Hs & Hsig). cbn in Hl. injection Hl as <-. cbn [attrs_of] in Hm, Hsig. exists s.
  assert (Hs' := Hs). cbn in Hs'. injection Hs' as <-.
  injection H1 as <-. injection H2 as <-. injection H3 as <-.
  eexists. split; [reflexivity|]. split; [reflexivity|]. split; [intros m [<-|[<-|[]]]; eexists; reflexivity|]. split; [reflexivity|]. split; [reflexivity|]. split; [reflexivity|].
  split.
  { assert (HK : forall n a, dget me_kw n = Some (ODict a) -> (n = "BasinHopping" /\ a = 0) \/ (n = "BFGS" /\ a = 2)).
    { intros n a. unfold me_kw. cbn [dget]. destruct (eq_dec n "BasinHopping") as [->|]; [intros E; injection E as <-; auto|]. destruct (eq_dec n "BFGS") as [->|]; [intros E; injection E as <-; auto|discriminate]. }
    assert (HU : forall n a d b, dget me_kw n = Some (ODict a) -> nth_error me_store a = Some d -> uses d b -> n = "BasinHopping" /\ b = 1).
    { intros n a d b Hn Hd (m & Hb). apply HK in Hn as [(-> & ->)|(-> & ->)]; cbn in Hd; injection Hd as <-; cbn in Hb; decompose [or] Hb; try contradiction; try discriminate. match goal with H : (_, ODict 1) = _ |- _ => injection H as _ <- end. auto. }
    split; [intros n a Hn; apply HK in Hn as [(-> & ->)|(-> & ->)]; cbn; lia|].
    split; [intros n a d b Hn Hd Hb; destruct (HU _ _ _ _ Hn Hd Hb) as (_ & ->); cbn; lia|].
    split; [intros n a d b m Hn Hd Hb Hm'; destruct (HU _ _ _ _ Hn Hd Hb) as (_ & ->); apply HK in Hm' as [(_ & E)|(_ & E)]; discriminate E|].
    intros n1 n2 a1 a2 e1 e2 b Hne Hn1 He1 Hb1 Hn2 He2 Hb2. destruct (HU _ _ _ _ Hn1 He1 Hb1) as (E1 & _). destruct (HU _ _ _ _ Hn2 He2 Hb2) as (E2 & _). congruence. }
  split; [reflexivity|]. split; [reflexivity|]. cbn. discriminate.
Qed.

(** ** What does not hold *)
(** BasinHopping writes into the user's [minimizer_kwargs]: with the same dictionary, another minimizer uses the local algorithm of the first. *)
Theorem C79_shared_kwargs_refuted : exists (h : heap) (f : fn) o1 o2 st1 c1 st2 c2 d,
  new mo_wrap h (Concrete BasinHopping) [VFun f; VParams mo_ps] [("local_minimizer", VClass LBFGSB)] = Ok o1 /\
  new mo_wrap h (Concrete BasinHopping) [VFun f; VParams mo_ps] [("local_minimizer", VClass NelderMead)] = Ok o2 /\
  one_call (U:=unit) h o1 [[]] [("minimizer_kwargs", ODict 0)] = Ok (st1, c1) /\
  one_call h o2 st1 [("minimizer_kwargs", ODict 0)] = Ok (st2, c2) /\ dget (ca_kw c2) "minimizer_kwargs" = Some (ODict 0) /\
  nth_error st2 0 = Some d /\ dget d "method" = Some (OText "L-BFGS-B").
Proof.
  exists me_heap, (fun _ => Raise TypeError). eexists _, _, _, _, _, _, _. split; [reflexivity|]. split; [reflexivity|]. split; [reflexivity|]. split; [reflexivity|]. split; [reflexivity|]. split; reflexivity.
Qed.
(** TrustConstr overrides the user's [sparse_jacobian], also for whoever uses these options next. *)
Theorem C79_sparse_jacobian_refuted : exists (h : heap) (f : fn) o st1 c1 d,
  new mo_wrap h (Concrete TrustConstr) [VFun f; VParams mo_ps] [] = Ok o /\
  one_call (U:=bool) h o [[("sparse_jacobian", OUser true)]] [("options", ODict 0)] = Ok (st1, c1) /\
  dget (ca_kw c1) "options" = Some (ODict 0) /\ nth_error st1 0 = Some d /\ dget d "sparse_jacobian" = Some OFalse.
Proof.
  exists me_heap, (fun _ => Raise TypeError). eexists _, _, _, _. split; [reflexivity|]. split; [reflexivity|]. split; [reflexivity|]. split; reflexivity.
Qed.
