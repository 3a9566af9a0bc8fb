(** * MinExecBasin: what BasinHopping calls scipy with. *)
From Coq Require Import Reals Lia.
From Verif Require Import PyBase PyFacts Signature SignatureFacts Expr NumPy Model Objective Minimizer MinSpec MinLemmas MinObj MinObjSpec MinObjFacts MinObjMain MinExec MinExecSpec MinExecFacts MinExecMain.
Local Open Scope string_scope.
Local Open Scope list_scope.

Section Basin.
  Context {raw U : Type}.
  Notation options := (options U).
  Notation store := (store U).
  Notation scall := (scall raw U).
  Notation object := (object raw).
  Notation attrs := (attrs raw).
  Implicit Types (kw d : options) (st : store).

  Definition fill d (b : bool) (n : string) (v : opt U) : options := if negb (dmem d n) && b then dset d n v else d.
  Lemma fill_get d b n v m : dget (fill d b n v) m = match dget d m with Some w => Some w | None => if eqb m n && b then Some v else None end.
  Proof using.
    unfold fill. rewrite dmem_dget. unfold eqb. destruct b; rewrite ?Bool.andb_true_r, ?Bool.andb_false_r; [|destruct (dget d m); reflexivity].
    destruct (dget d n) eqn:E; cbn [negb]; [destruct (eq_dec m n) as [->|]; [rewrite E; reflexivity|destruct (dget d m); reflexivity]|].
    rewrite dget_dset. destruct (eq_dec m n) as [->|]; [rewrite E; reflexivity|destruct (dget d m); reflexivity].
  Qed.

  Lemma complete_plain h c (sl : attrs) d pb : plain_local c = true -> problem_of h (Obj (Concrete c) sl) DNone DNone = Ok pb ->
    exists d', complete h (Obj (Concrete c) sl) d = Ok d' /\ forall n, dget d' n = match dget d n with Some v => Some v | None => local_keywords c pb n end.
  Proof using.
    intros Hc Hpb. destruct (problem_parts h c sl _ _ pb Hpb) as [(ps & Hps & Hb1 & Hb2) (x0 & Hx & _) Hcons Hrt].
    assert (Hj : is_gradient c = true -> derivative_attr sl "wrapped_jacobian" = Ok (pb_jac pb)).
    { intros Hg. revert Hpb. unfold problem_of. rewrite Hps. cbn [bind]. rewrite Hx. cbn [bind]. match goal with |- context [bind ?X _] => destruct X as [w|]; [|discriminate] end. cbn [bind].
      destruct c; try discriminate Hc; try discriminate Hg; cbv beta iota; try rewrite Hg; destruct (derivative_attr sl "wrapped_jacobian") as [j|]; try discriminate; cbn [bind]; intros H; injection H as <-; reflexivity. }
    exists (fill (fill (fill (fill d true "method" (OText (method_name c))) (is_gradient c) "jac" (derivative (pb_jac pb))) (is_constrained c) "constraints" (OCons (pb_cons pb)))
       (is_bounded c) "bounds" (OBounds (map (fun p => (p_min (h p), p_max (h p))) ps))).
    split.
    - unfold complete.
      replace (if dmem d "method" then d else dset d "method" (OText (method_name c))) with (fill d true "method" (OText (method_name c))).
      2:{ unfold fill. destruct (dmem d "method"); reflexivity. }
      set (d1 := fill d true "method" _).
      assert (E1 : (if negb (dmem d1 "jac") && is_gradient c then j <- derivative_opt sl "wrapped_jacobian" ;; Ok (dset d1 "jac" j) else Ok d1) = Ok (fill d1 (is_gradient c) "jac" (derivative (pb_jac pb)))).
      { clearbody d1. unfold fill. destruct (negb (dmem d1 "jac")); cbn [andb]; [|reflexivity]. destruct (is_gradient c) eqn:Eg; [|reflexivity]. rewrite (opt_of_attr (U:=U) _ _ _ (Hj eq_refl)). reflexivity. }
      rewrite E1. cbn [bind]. set (d2 := fill d1 _ _ _).
      assert (E2 : (if negb (dmem d2 "constraints") && is_constrained c then w <- handed_attr sl ;; Ok (dset d2 "constraints" (OCons w)) else Ok d2) = Ok (fill d2 (is_constrained c) "constraints" (OCons (pb_cons pb)))).
      { clearbody d2. unfold fill. destruct (negb (dmem d2 "constraints")); cbn [andb]; [|reflexivity]. destruct (is_constrained c) eqn:Eg; [|reflexivity]. rewrite (Hcons eq_refl). reflexivity. }
      match goal with |- bind ?X _ = _ => replace X with (Ok (fill d2 (is_constrained c) "constraints" (OCons (pb_cons pb)))) by (symmetry; exact E2) end. cbn [bind]. set (d3 := fill d2 _ _ _). clearbody d3. unfold fill. destruct (negb (dmem d3 "bounds")); cbn [andb]; [|reflexivity]. destruct (is_bounded c) eqn:Eg; [|reflexivity].
      unfold bounds_opt, bounds_of. rewrite Hps. cbn [bind]. destruct c; try discriminate Hc; reflexivity.
    - intros n. rewrite !fill_get. destruct (dget d n); [reflexivity|].
      assert (Hbox : option_map (@OBounds U) (box pb) = if is_bounded c then Some (OBounds (map (fun p => (p_min (h p), p_max (h p))) ps)) else None).
      { unfold box. destruct (is_bounded c); [destruct (Hb1 eq_refl) as (-> & ->); rewrite combine_maps; reflexivity|destruct (Hb2 eq_refl) as (-> & _); reflexivity]. }
      unfold local_keywords. rewrite Hbox. rewrite Hrt. unfold eqb.
      destruct (eq_dec n "method") as [->|]; [destruct c; try discriminate Hc; reflexivity|]. cbn [andb].
      destruct (eq_dec n "jac") as [->|]; [destruct c; try discriminate Hc; reflexivity|]. cbn [andb].
      destruct (eq_dec n "constraints") as [->|]; [destruct c; try discriminate Hc; reflexivity|]. cbn [andb].
      destruct (eq_dec n "bounds") as [->|]; [|reflexivity]. destruct (is_bounded c); reflexivity.
  Qed.

  Theorem basin_call h (self : attrs) st kw pb f c (sl : attrs) lpb a d :
    problem_of h (Obj (Concrete BasinHopping) self) DNone DNone = Ok pb -> getattr self "objective" = Ok f ->
    getattr self "local_minimizer" = Ok (VMin (Obj (Concrete c) sl)) -> plain_local c = true -> problem_of h (Obj (Concrete c) sl) DNone DNone = Ok lpb ->
    kwargs_for st kw a d ->
    (conflicts BasinHopping kw /\ one_call h (Obj (Concrete BasinHopping) self) st kw = Raise TypeError) \/
    (~ conflicts BasinHopping kw /\ exists st' k d', one_call h (Obj (Concrete BasinHopping) self) st kw = Ok (st', {| ca_function := SBasinHopping; ca_objective := f; ca_x0 := pb_x0 pb; ca_kw := k |}) /\
      (forall n, dget k n = if eqb n "minimizer_kwargs" then Some (ODict a) else dget kw n) /\
      nth_error st' a = Some d' /\ (forall n, dget d' n = match dget d n with Some v => Some v | None => local_keywords c lpb n end) /\
      only_at st st' a /\ List.length st' = max (List.length st) (S a)).
  Proof using.
    intros Hpb Hf Hl Hc Hlpb Hk. destruct (problem_parts h BasinHopping self _ _ pb Hpb) as [_ (x0 & Hx & Hx0) _ _]. specialize (Hx0 ltac:(discriminate)).
    destruct (complete_plain h c sl d lpb Hc Hlpb) as (d' & Hd' & Hget).
    set (kw1 := if dmem kw "minimizer_kwargs" then kw else dset kw "minimizer_kwargs" (ODict (List.length st))).
    set (st1 := if dmem kw "minimizer_kwargs" then st else st ++ [[]]).
    assert (Hp : (if dmem kw "minimizer_kwargs" then (kw, st) else (dset kw "minimizer_kwargs" (ODict (List.length st)), st ++ [[]])) = (kw1, st1)) by (unfold kw1, st1; destruct (dmem kw "minimizer_kwargs"); reflexivity).
    assert (Hkw1 : forall n, dget kw1 n = if eqb n "minimizer_kwargs" then Some (ODict a) else dget kw n).
    { intros n. unfold kw1, eqb. rewrite dmem_dget. destruct Hk as [(E & -> & _)|(E & _)]; rewrite E.
      - rewrite dget_dset. destruct (eq_dec n "minimizer_kwargs"); reflexivity.
      - destruct (eq_dec n "minimizer_kwargs") as [->|]; [exact E|reflexivity]. }
    assert (Hst1 : nth_error st1 a = Some d /\ (forall b, b < List.length st -> nth_error st1 b = nth_error st b) /\ List.length st1 = max (List.length st) (S a)).
    { unfold st1. rewrite dmem_dget. destruct Hk as [(E & -> & ->)|(E & Ha)]; rewrite E.
      - split; [rewrite nth_error_app2 by lia; rewrite Nat.sub_diag; reflexivity|]. split; [intros b Hb; rewrite nth_error_app1 by exact Hb; reflexivity|]. rewrite app_length. cbn [List.length]. lia.
      - split; [exact Ha|]. split; [reflexivity|]. assert (a < List.length st) by (apply nth_error_Some; congruence). lia. }
    destruct Hst1 as (Hat & Hoth & Hlen).
    assert (Hread : read st1 (ODict a) = Ok (a, d)) by (cbn [read]; rewrite Hat; reflexivity).
    assert (Hlook : dlook kw1 "minimizer_kwargs" = Ok (ODict a)) by (unfold dlook; rewrite Hkw1; reflexivity).
    assert (Hr : forall n, reserved BasinHopping n = inb n ["func"; "x0"]) by (intros n; reflexivity).
    assert (H0 : one_call h (Obj (Concrete BasinHopping) self) st kw = (_ <- not_again kw1 ["func"; "x0"] ;; Ok (write st1 a d', {| ca_function := SBasinHopping; ca_objective := f; ca_x0 := Some x0; ca_kw := kw1 |}))).
    { unfold one_call. match goal with |- context [mro ?X] => let l := eval vm_compute in (mro X) in change (mro X) with l end. cbn [exec_chain]. rewrite Hp. rewrite Hlook. cbn [bind]. rewrite Hread. cbn [bind]. rewrite Hl. cbn [bind]. rewrite Hd'. cbn [bind]. rewrite Hf, Hx. reflexivity. }
    rewrite H0. clear H0.
    assert (Hsame : forall n, In n ["func"; "x0"] -> dget kw1 n = dget kw n) by (intros n [<-|[<-|[]]]; rewrite Hkw1; reflexivity).
    destruct (existsb (dmem kw) ["func"; "x0"]) eqn:E.
    - left. apply existsb_exists in E as (n & Hn & E). split; [exists n; split; [exact E|]; rewrite Hr; apply inb_In; exact Hn|].
      rewrite (not_again_bad _ _ n Hn); [reflexivity|]. rewrite (Hsame n Hn). rewrite dmem_dget in E. destruct (dget kw n); discriminate.
    - assert (Hno : forall n, In n ["func"; "x0"] -> dget kw n = None).
      { intros n Hn. destruct (dget kw n) eqn:Ed; [|reflexivity]. exfalso. assert (existsb (dmem kw) ["func"; "x0"] = true); [|congruence]. apply existsb_exists. exists n. split; [exact Hn|]. rewrite dmem_dget, Ed. reflexivity. }
      right. split. { intros Hcf. apply (conflict_iff _ kw _ Hr) in Hcf as (n & Hn & Hdn). apply Hdn, Hno. exact Hn. }
      rewrite not_again_ok by (intros n Hn; rewrite (Hsame n Hn); apply Hno; exact Hn). cbn [bind].
      exists (write st1 a d'), kw1, d'. rewrite Hx0. split; [reflexivity|]. split; [exact Hkw1|].
      assert (Hlt : a < List.length st1) by (apply nth_error_Some; congruence).
      split; [apply write_at; exact Hlt|]. split; [exact Hget|]. split; [|rewrite write_length; exact Hlen].
      intros b Hb Hn. rewrite write_other by exact Hn. apply Hoth. exact Hb.
  Qed.
End Basin.
