(** * Prop_Args: properties C55-C57 and C65. *)
From Coq Require Import Reals Lra.
From Verif Require Import PyBase PyFacts Args ArgsSpec ArgsFacts ArgsMain ArgsPars.
Local Open Scope R_scope.
Local Open Scope string_scope.
Local Open Scope list_scope.

(** ** C55.  In any history of creations and assignments: two Arguments created without
    a name, of the same class or of classes with different prefixes ('par', 'var'), have
    different names, and keep them. *)
Theorem C55_nameless_arguments_have_different_names :
  forall es w rs i j c1 c2 o1 o2, exec start es = (w, rs) -> no_empty_names es ->
    creates es rs i c1 None o1 -> creates es rs j c2 None o2 -> i <> j ->
    (c1 = c2 \/ cls_prefix c1 <> cls_prefix c2) ->
    exists x1 x2, obj w o1 = Some x1 /\ obj w o2 = Some x2 /\ o_name x1 <> o_name x2.
Proof. exact auto_names_distinct. Qed.
Print Assumptions C55_nameless_arguments_have_different_names.

(** An Argument created without a name is a new object, unless the user gives an Argument
    of the same class a name of the generated form. *)
Theorem C55_nameless_arguments_are_new_objects :
  forall es w rs i j c1 c2 n2 o1 o2, exec start es = (w, rs) -> no_empty_names es ->
    creates es rs i c1 None o1 -> creates es rs j c2 n2 o2 -> i <> j ->
    (forall s k, n2 = Some s -> c1 = c2 -> s <> (cls_prefix c1 ++ "_" ++ string_of_nat k)%string) -> o1 <> o2.
Proof. exact auto_object_new. Qed.
Print Assumptions C55_nameless_arguments_are_new_objects.

(** A Parameter the user called 'par_1' IS the next nameless Parameter. *)
Theorem C55_user_name_refuted :
  exists w, fst (create (fst (create start CParameter (Some "par_1") defaults true)) CParameter None defaults true) = w /\
    snd (create start CParameter (Some "par_1") defaults true) = Ok 0%nat /\
    snd (create (fst (create start CParameter (Some "par_1") defaults true)) CParameter None defaults true) = Ok 0%nat.
Proof. eexists. split; [reflexivity|]. split; reflexivity. Qed.
Print Assumptions C55_user_name_refuted.

(** A subclass of Parameter has its own counter and the same prefix. *)
Definition SubParameter : pycls := {| cls_id := 2; cls_prefix := "par"; cls_par := true |}.
Theorem C55_subclass_refuted :
  exists w1 w2 o1 o2 x1 x2, create start CParameter None defaults true = (w1, Ok o1) /\
    create w1 SubParameter None defaults true = (w2, Ok o2) /\
    obj w2 o1 = Some x1 /\ obj w2 o2 = Some x2 /\ o1 <> o2 /\ o_name x1 = o_name x2.
Proof. do 6 eexists. split; [reflexivity|]. split; [reflexivity|]. split; [reflexivity|]. split; [reflexivity|]. split; [discriminate|reflexivity]. Qed.
Print Assumptions C55_subclass_refuted.

(** An empty name is replaced by a generated one and then put back. *)
Theorem C55_empty_name_refuted :
  exists w1 w2 o1 o2 x1 x2, create start CVariable (Some "") defaults true = (w1, Ok o1) /\
    create w1 CVariable (Some "") defaults true = (w2, Ok o2) /\
    obj w2 o1 = Some x1 /\ obj w2 o2 = Some x2 /\ o1 <> o2 /\ o_name x1 = "" /\ o_name x2 = "".
Proof. do 6 eexists. split; [reflexivity|]. split; [reflexivity|]. split; [reflexivity|]. split; [reflexivity|]. split; [discriminate|split; reflexivity]. Qed.
Print Assumptions C55_empty_name_refuted.

(** A history as in the hypotheses: Parameter(); Variable('y'); Parameter(value=10); Variable(). *)
Example C55_nontrivial :
  let es := [Create CParameter None defaults true; Create CVariable (Some "y") defaults true;
             Create CParameter None defaults true; Create CVariable None defaults true] in
  no_empty_names es /\ creates es (snd (exec start es)) 0 CParameter None 0 /\
  creates es (snd (exec start es)) 2 CParameter None 2 /\ creates es (snd (exec start es)) 3 CVariable None 3 /\
  map o_name (w_objs (fst (exec start es))) = ["par_0"; "y"; "par_1"; "var_1"].
Proof.
  intros es. split; [intros c a hit [H|[H|[H|[H|[]]]]]; discriminate|].
  split; [split; [exists defaults, true; reflexivity|reflexivity]|].
  split; [split; [exists defaults, true; reflexivity|reflexivity]|].
  split; [split; [exists defaults, true; reflexivity|reflexivity]|reflexivity].
Qed.

(** ** C56. *)
Theorem C56_crossed_bounds_rejected :
  forall w c name a hit, reachable w -> name <> Some "" -> cls_par c = true ->
    crossed (a_min a) (a_max a) -> truthy (a_fixed a) = false ->
    snd (create w c name a hit) = Raise ValueError.
Proof. intros w c name a hit Hw. exact (create_rejects w c name a hit (reachable_Inv w Hw)). Qed.
Print Assumptions C56_crossed_bounds_rejected.

(** With bounds in order the Parameter has the attributes it was given, and no other
    object changes. *)
Theorem C56_attributes_as_given :
  forall w c n a hit, reachable w -> n <> "" -> cls_par c = true ->
    ordered (a_min a) (a_max a) ->
    exists w' o, create w c (Some n) a hit = (w', Ok o) /\
      is_parameter w' o n (a_value a) (a_min a) (a_max a) (a_fixed a) /\
      (forall o', o' <> o -> obj w' o' = obj w o').
Proof.
  intros w c n a hit Hw Hn Hc Ho.
  assert (Hn' : Some n <> Some "") by congruence.
  destruct (create_accepts w c (Some n) a hit (reachable_Inv w Hw) Hn' Hc Ho) as (w' & o & H1 & H2 & H3 & _).
  exists w', o. auto.
Qed.
Print Assumptions C56_attributes_as_given.

(** Every pair of bounds falls under one of the two theorems. *)
Theorem C56_bounds_cases : forall a b, crossed a b \/ ordered a b.
Proof. exact crossed_or_ordered. Qed.
Print Assumptions C56_bounds_cases.

(** Whatever the arguments and the outcome, only an object of that name and class changes. *)
Theorem C56_others_unchanged :
  forall w c n a hit, reachable w -> n <> "" ->
    exists o, (forall o', o' <> o -> obj (fst (create w c (Some n) a hit)) o' = obj w o') /\
      (forall x, obj w o = Some x -> o_name x = n /\ o_cls x = c).
Proof.
  intros w c n a hit Hw Hn. destruct (create w c (Some n) a hit) as [w' r] eqn:E.
  destruct (create_frame w c (Some n) a hit w' r (reachable_Inv w Hw) ltac:(congruence) E) as (o & H1 & H2 & _).
  exists o. auto.
Qed.
Print Assumptions C56_others_unchanged.

(** A fixed Parameter with min > max is accepted, but has no min and max: reading them
    raises AttributeError. *)
Theorem C56_fixed_crossed_refuted :
  forall value mn mx, crossed mn mx ->
    exists w x, create start CParameter (Some "a") {| a_value := value; a_min := mn; a_max := mx; a_fixed := PBool true |} true = (w, Ok 0%nat) /\
      obj w 0%nat = Some x /\ o_value x = Some value /\ o_min x = None /\ o_max x = None.
Proof.
  intros value mn mx Hc. destruct (create start CParameter (Some "a") {| a_value := value; a_min := mn; a_max := mx; a_fixed := PBool true |} true) as [w r] eqn:E.
  exists w. unfold create, parameter_init in E.
  change (if is_none _ then Ok false else _) with (bounds_bad {| a_value := value; a_min := mn; a_max := mx; a_fixed := PBool true |}) in E.
  rewrite (bad_crossed {| a_value := value; a_min := mn; a_max := mx; a_fixed := PBool true |} Hc) in E. cbn in E. injection E as <- <-.
  eexists. split; [reflexivity|]. split; [reflexivity|]. split; [reflexivity|]. split; reflexivity.
Qed.
Print Assumptions C56_fixed_crossed_refuted.

(** A creation that is rejected has already changed the value of the Parameter of that
    name that exists. *)
Theorem C56_rejected_creation_changes_refuted :
  exists w a, reachable w /\ is_parameter w 0%nat "a" (PNum 2) (PNum 0) (PNum 3) (PBool false) /\
    snd (create w CParameter (Some "a") a true) = Raise ValueError /\
    exists x, obj (fst (create w CParameter (Some "a") a true)) 0%nat = Some x /\ o_value x = Some (PNum 5).
Proof.
  set (a0 := {| a_value := PNum 2; a_min := PNum 0; a_max := PNum 3; a_fixed := PBool false |}).
  set (a1 := {| a_value := PNum 5; a_min := PNum 1; a_max := PNum 0; a_fixed := PBool false |}).
  pose (w0 := {| w_objs := [{| o_cls := CParameter; o_name := "a"; o_index := 0%nat; o_value := Some (PNum 2);
                               o_min := Some (PNum 0); o_max := Some (PNum 3); o_fixed := Some (PBool false) |}];
                 w_cache := [((CParameter, "a"), 0%nat)]; w_ctr := [(CParameter, 1%nat)] |}).
  pose (w1 := {| w_objs := [{| o_cls := CParameter; o_name := "a"; o_index := 1%nat; o_value := Some (PNum 5);
                               o_min := Some (PNum 0); o_max := Some (PNum 3); o_fixed := Some (PBool false) |}];
                 w_cache := [((CParameter, "a"), 0%nat)]; w_ctr := [(CParameter, 2%nat)] |}).
  assert (E0 : bounds_bad a0 = Ok false) by (apply bad_ordered; right; right; exists 0, 3; simpl; repeat split; lra).
  assert (E1 : bounds_bad a1 = Ok true) by (apply bad_crossed; exists 1, 0; simpl; repeat split; lra).
  assert (H0 : create start CParameter (Some "a") a0 true = (w0, Ok 0%nat)).
  { unfold create, parameter_init. change (if is_none (a_min a0) then Ok false else _) with (bounds_bad a0). rewrite E0. reflexivity. }
  assert (H1 : create w0 CParameter (Some "a") a1 true = (w1, Raise ValueError)).
  { unfold create, parameter_init. change (if is_none (a_min a1) then Ok false else _) with (bounds_bad a1). rewrite E1. reflexivity. }
  exists w0, a1. rewrite H1. split; [|split; [|split; [reflexivity|]]].
  - exists [Create CParameter (Some "a") a0 true]. split; [intros c a hit [H|[]]; discriminate|].
    cbn [exec step]. rewrite H0. reflexivity.
  - eexists. split; [reflexivity|]. repeat split; reflexivity.
  - eexists. split; reflexivity.
Qed.
Print Assumptions C56_rejected_creation_changes_refuted.

Example C56_nontrivial :
  crossed (PNum 2) (PNum 1) /\ ordered (PNum 1) (PNum 2) /\ ordered PNone (PNum 2) /\ ordered (PNum 1) (PNum 1) /\ reachable start.
Proof.
  split; [exists 2, 1; simpl; repeat split; lra|]. split; [right; right; exists 1, 2; simpl; repeat split; lra|].
  split; [left; reflexivity|]. split; [right; right; exists 1, 1; simpl; repeat split; lra|].
  exists []. split; [intros c a hit []|reflexivity].
Qed.

(** ** C57.  [requested kw k i]: the default, the one value given for all, or the [i]-th
    element of the sequence given. *)
Theorem C57_attributes_as_requested :
  forall w names kw hit, reachable w -> NoDup names -> ~ In "" names -> names <> [] ->
    lengths_ok kw (List.length names) -> comparable kw -> no_oneshot_bounds kw ->
    (forall i, (i < List.length names)%nat ->
       exists mn mx, requested kw Min i = Some mn /\ requested kw Max i = Some mx /\ ordered mn mx) ->
    exists w' os, parameters w names kw hit = (w', Ok os) /\ List.length os = List.length names /\ NoDup os /\
      (forall i o n, nth_error os i = Some o -> nth_error names i = Some n ->
         exists va mn mx fx, requested kw Value i = Some va /\ requested kw Min i = Some mn /\
           requested kw Max i = Some mx /\ requested kw Fixed i = Some fx /\ is_parameter w' o n va mn mx fx) /\
      (forall o, ~ In o os -> obj w' o = obj w o).
Proof. intros w names kw hit Hw. exact (parameters_spec w names kw hit (reachable_Inv w Hw)). Qed.
Print Assumptions C57_attributes_as_requested.

(** A call that returns was given sequences of the right length, and bounds that are not
    crossed - if both are single values or both sequences, and single bounds of a fixed
    parameter excepted. *)
Theorem C57_wrong_arguments_rejected :
  forall w names kw hit w' os, reachable w -> ~ In "" names -> names <> [] ->
    parameters w names kw hit = (w', Ok os) ->
    List.length os = List.length names /\
    (forall k l, kw k = Some (Sized l) -> List.length l = List.length names) /\
    (forall mn mx, kw Min = Some (Scalar mn) -> kw Max = Some (Scalar mx) -> crossed mn mx ->
       exists f, kw Fixed = Some (Scalar f) /\ truthy f = true) /\
    (forall l m i u v, kw Min = Some (Sized l) -> kw Max = Some (Sized m) ->
       nth_error l i = Some u -> nth_error m i = Some v -> ~ crossed u v).
Proof. intros w names kw hit w' os Hw. exact (parameters_checked w names kw hit w' os (reachable_Inv w Hw)). Qed.
Print Assumptions C57_wrong_arguments_rejected.

(** The rejection is a ValueError. *)
Theorem C57_rejection_is_ValueError :
  forall w names kw hit, reachable w -> ~ In "" names -> comparable kw ->
    (exists os, snd (parameters w names kw hit) = Ok os) \/ snd (parameters w names kw hit) = Raise ValueError.
Proof. intros w names kw hit Hw. exact (parameters_errors w names kw hit (reachable_Inv w Hw)). Qed.
Print Assumptions C57_rejection_is_ValueError.

(** A single min with a sequence of max is not compared: the parameters get min > max. *)
Theorem C57_mixed_bounds_refuted :
  let kw := fun k => match k with Min => Some (Scalar (PNum 10)) | Max => Some (Sized [PNum 1; PNum 2]) | _ => None end in
  exists w, parameters start ["a"; "b"] kw (fun _ => true) = (w, Ok [0%nat; 1%nat]) /\
    is_parameter w 0 "a" (PNum 1) (PNum 10) (PNum 1) (PBool false) /\ crossed (PNum 10) (PNum 1).
Proof.
  intros kw. eexists. split; [reflexivity|]. split; [|exists 10, 1; simpl; repeat split; lra].
  eexists. split; [reflexivity|]. repeat split; reflexivity.
Qed.
Print Assumptions C57_mixed_bounds_refuted.

(** Bounds given as two iterators are read by the check and then lost. *)
Theorem C57_iterator_bounds_refuted :
  let kw := fun k => match k with Min => Some (Iterator [PNum 0; PNum 0]) | Max => Some (Iterator [PNum 1; PNum 1]) | _ => None end in
  exists w, parameters start ["a"; "b"] kw (fun _ => true) = (w, Ok [0%nat; 1%nat]) /\
    is_parameter w 0 "a" (PNum 1) PNone PNone (PBool false) /\ is_parameter w 1 "b" (PNum 1) PNone PNone (PBool false).
Proof.
  intros kw. unfold parameters. cbn [kw is_seq]. unfold check_bounds; cbn [contents zip_check]. unfold gt; cbn [num_of].
  destruct (Rlt_dec 1 0) as [H|_]; [lra|]. cbn [bind].
  pose (pd := fun n i => {| o_cls := CParameter; o_name := n; o_index := i; o_value := Some (PNum 1);
                            o_min := Some PNone; o_max := Some PNone; o_fixed := Some (PBool false) |}).
  exists {| w_objs := [pd "a" 0%nat; pd "b" 1%nat]; w_cache := [((CParameter, "a"), 0%nat); ((CParameter, "b"), 1%nat)];
            w_ctr := [(CParameter, 2%nat)] |}.
  split; [reflexivity|]. split; (eexists; split; [reflexivity|]; repeat split; reflexivity).
Qed.
Print Assumptions C57_iterator_bounds_refuted.

(** A sequence of the wrong length raises, but the attributes are assigned all the same. *)
Theorem C57_rejected_call_changes_refuted :
  let w := fst (parameters start ["a"; "b"] (fun _ => None) (fun _ => true)) in
  let kw := fun k => match k with Value => Some (Sized [PNum 7]) | _ => None end in
  is_parameter w 0 "a" (PNum 1) PNone PNone (PBool false) /\
  snd (parameters w ["a"; "b"] kw (fun _ => true)) = Raise ValueError /\
  is_parameter (fst (parameters w ["a"; "b"] kw (fun _ => true))) 0 "a" (PNum 7) PNone PNone (PBool false).
Proof.
  intros w kw.
  pose (pd := fun n i v => {| o_cls := CParameter; o_name := n; o_index := i; o_value := Some (PNum v);
                              o_min := Some PNone; o_max := Some PNone; o_fixed := Some (PBool false) |}).
  assert (Hw : w = {| w_objs := [pd "a" 0%nat 1; pd "b" 1%nat 1]; w_cache := [((CParameter, "a"), 0%nat); ((CParameter, "b"), 1%nat)];
                      w_ctr := [(CParameter, 2%nat)] |}) by reflexivity.
  clearbody w. subst w.
  match goal with |- context [parameters ?w ?n kw ?h] => set (r := parameters w n kw h) end.
  assert (Hr : r = ({| w_objs := [pd "a" 2%nat 7; pd "b" 3%nat 1]; w_cache := [((CParameter, "a"), 0%nat); ((CParameter, "b"), 1%nat)];
                      w_ctr := [(CParameter, 4%nat)] |}, Raise ValueError)) by reflexivity.
  clearbody r. subst r. unfold fst, snd.
  split; [|split; [reflexivity|]]; (eexists; split; [reflexivity|]; repeat split; reflexivity).
Qed.
Print Assumptions C57_rejected_call_changes_refuted.

(** The arguments of the test-suite: value a list, min a single number. *)
Example C57_nontrivial :
  let names := ["x1"; "x2"] in
  let kw := fun k => match k with Value => Some (Sized [PNum 2; PNum (13/10)]) | Min => Some (Sized [PNum (-30); PNum (-10)])
                     | Max => Some (Sized [PNum 300; PNum 100]) | Fixed => Some (Sized [PBool true; PBool false]) end in
  lengths_ok kw (List.length names) /\ comparable kw /\ no_oneshot_bounds kw /\
  (forall i, (i < List.length names)%nat -> exists mn mx, requested kw Min i = Some mn /\ requested kw Max i = Some mx /\ ordered mn mx).
Proof.
  intros names kw. split; [intros []; reflexivity|]. split.
  - simpl. repeat split; try discriminate; intros v [<-|[<-|[]]]; discriminate.
  - split; [intros l; split; discriminate|]. intros [|[|i]] Hi; simpl in Hi; [| |lia].
    + exists (PNum (-30)), (PNum 300). split; [reflexivity|]. split; [reflexivity|]. right; right. exists (-30), 300. simpl. repeat split; lra.
    + exists (PNum (-10)), (PNum 100). split; [reflexivity|]. split; [reflexivity|]. right; right. exists (-10), 100. simpl. repeat split; lra.
Qed.

(** ** C65.  Loading the pickle of a Variable or Parameter in any interpreter gives one of
    the same class and name, with the same value, bounds and fixed; other objects do not
    change. *)
Theorem C65_pickle_keeps_attributes :
  forall w hit x, reachable w -> o_name x <> "" ->
    let '(w', o) := loads w (dumps x) hit in
    (forall o', o' <> o -> obj w' o' = obj w o') /\
    exists y, obj w' o = Some y /\ o_name y = o_name x /\ o_cls y = o_cls x /\
      (cls_par (o_cls x) = true -> forall k v, getattr k x = Some v -> getattr k y = Some v) /\
      (forall k, getattr k x = None -> cls_par (o_cls x) = true -> obj w o = None -> getattr k y = None).
Proof. intros w hit x Hw Hn. exact (pickle_roundtrip w (dumps x) hit x (reachable_Inv w Hw) Hn eq_refl). Qed.
Print Assumptions C65_pickle_keeps_attributes.

(** In the interpreter that made the pickle, loading it gives the very Parameter back and
    undoes every change of its attributes since. *)
Theorem C65_loading_resets_refuted :
  let w := fst (create start CParameter (Some "a") defaults true) in
  let w1 := upd w 0 (setattr Value (PNum 5)) in
  exists x x1, obj w 0 = Some x /\ obj w1 0 = Some x1 /\ o_value x1 = Some (PNum 5) /\
    snd (loads w1 (dumps x) true) = 0%nat /\
    exists y, obj (fst (loads w1 (dumps x) true)) 0 = Some y /\ o_value y = Some (PNum 1).
Proof. intros w w1. do 2 eexists. split; [reflexivity|]. split; [reflexivity|]. split; [reflexivity|]. split; [reflexivity|]. eexists. split; reflexivity. Qed.
Print Assumptions C65_loading_resets_refuted.

Example C65_nontrivial :
  exists x, obj (fst (create start CParameter (Some "a") defaults true)) 0 = Some x /\ cls_par (o_cls x) = true /\
    o_name x = "a" /\ List.length (k_state (dumps x)) = 4%nat.
Proof. eexists. split; [reflexivity|]. repeat split; reflexivity. Qed.
