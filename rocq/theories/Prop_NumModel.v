(** * Prop_NumModel: properties C67 and C68, models with Python callables as components. *)
From Verif Require Import PyBase PyFacts Signature SignatureFacts Expr Model ModelSpec ModelFacts CallFacts NumModel NumSpec NumMain Prop_Model.
Local Open Scope string_scope.
Local Open Scope list_scope.

(** ** C67.  A numerical model returns, under the names of its components in alphabetical
    order, the values for which every callable was given exactly the values of the symbols
    the connectivity mapping names for it, and every expression those of its symbols. *)
Theorem C67_numerical_call :
  forall V (A : alg V) ord1 ord2 (items : dict sym comp) user m inp val args kw,
    set_order ord1 -> set_order ord2 -> proper_numerical items user -> init_numerical ord1 items user = Ok m ->
    nsolution A items user inp val ->
    supplies (named inp (m_indep m ++ m_params m)) args kw ->
    exists names, Permutation names (dkeys items) /\ alphabetical sname names /\
      call A ord2 m args kw = Ok {| mo_vars := names; mo_out := map val names |}.
Proof. intros V A. exact (numerical_call A). Qed.
Print Assumptions C67_numerical_call.

(** Its arguments are the Variables, then the Parameters, that occur in the mapping or the
    expressions and are not components; in conflict the mapping wins over the expression. *)
Theorem C67_numerical_arguments :
  forall V ord (items : dict sym (comp (V:=V))) user m,
    set_order ord -> proper_numerical items user -> init_numerical ord items user = Ok m ->
    (forall s, In s (m_indep m) <-> nsymbol items user s /\ ~ In s (dkeys items) /\ is_par s = false) /\
    (forall s, In s (m_params m) <-> nsymbol items user s /\ is_par s = true) /\
    alphabetical sname (m_indep m) /\ alphabetical sname (m_params m) /\
    m_sig m = required (map sname (m_indep m ++ m_params m)).
Proof. intros V. exact numerical_classification. Qed.
Print Assumptions C67_numerical_arguments.

(** Without a connectivity mapping (and without the deprecated arguments) there is no model. *)
Theorem C67_mapping_required :
  forall V ord (items : dict sym (comp (V:=V))), init_numerical ord items [] = Raise TypeError.
Proof. reflexivity. Qed.
Print Assumptions C67_mapping_required.

(** The deprecated form with lists of independent variables and parameters is the mapping in
    which every component depends on all of them. *)
Theorem C67_deprecated_form :
  forall V ord (items : dict sym (comp (V:=V))) indep params, items <> [] ->
    (forall k c, In (k, c) items -> exists i f, c = CFun i f) ->
    init_deprecated ord items indep params =
    init_numerical ord items (map (fun kc => (fst kc, dedup (indep ++ params))) items).
Proof. intros V. exact deprecated_same. Qed.
Print Assumptions C67_deprecated_form.

(** [{y: lambda x, a: a*x, z: y + b}] with mapping [{y: {x, a}}]. *)
Definition nx_f (kw : dict string Z) : res Z :=
  x <- dlook kw "x" ;; a <- dlook kw "a" ;; if Nat.eqb (List.length kw) 2 then Ok (a * x)%Z else Raise TypeError.
Definition nx_items : dict sym (comp (V:=Z)) := [(vz, CExpr (EAdd (ESym vy) (ESym pb))); (vy, CFun 0 nx_f)].
Definition nx_user : dict sym (list sym) := [(vy, [vx; pa])].
Definition nx_val (s : sym) : Z :=
  if eq_dec s vx then 5%Z else if eq_dec s pa then 2%Z else if eq_dec s pb then 3%Z else if eq_dec s vy then 10%Z else if eq_dec s vz then 13%Z else 0%Z.
Lemma nx_depends k s : depends nx_items nx_user k s -> (k = vy /\ (s = vx \/ s = pa)) \/ (k = vz /\ (s = vy \/ s = pb)).
Proof.
  unfold depends, nx_user. simpl. destruct (eq_dec k vy) as [->|Hk].
  - intros [<-|[<-|[]]]; auto.
  - intros (e & [H|[H|[]]] & Hm); [|discriminate]. injection H as <- <-. right. split; [reflexivity|].
    destruct Hm as [[<-|[<-|[]]]|(y & ps & [H|[H|[]]] & _)]; auto; discriminate.
Qed.
Lemma nx_proper : proper_numerical nx_items nx_user.
Proof.
  assert (Hs : forall s, nsymbol nx_items nx_user s -> s = vx \/ s = vy \/ s = vz \/ s = pa \/ s = pb).
  { intros s [[<-|[<-|[]]]|(k & Hk)]; auto. apply nx_depends in Hk as [(_ & [->| ->])|(_ & [->| ->])]; auto. }
  split.
  - apply nodupb_iff; vm_compute; reflexivity.
  - apply nodupb_iff; vm_compute; reflexivity.
  - intros k deps [H|[]]. injection H as <- <-. apply nodupb_iff; vm_compute; reflexivity.
  - intros k [<-|[]]. right. left. reflexivity.
  - intros k i f [H|[H|[]]]; [discriminate|]. injection H as <- _ _. left. reflexivity.
  - intros k e deps s [H|[H|[]]] [H2|[]]; [|discriminate]. injection H as <- _. discriminate.
  - intros k H. apply nx_depends in H as [(-> & [H|H])|(-> & [H|H])]; discriminate.
  - intros k [<-|[<-|[]]]; reflexivity.
  - intros s t H1 H2. apply Hs in H1, H2.
    destruct H1 as [->|[->|[->|[->| ->]]]], H2 as [->|[->|[->|[->| ->]]]]; try reflexivity; discriminate.
Qed.
Lemma nx_solution : nsolution Zalg nx_items nx_user nx_val nx_val.
Proof.
  split; [|split].
  - intros k e [H|[H|[]]]; [|discriminate]. injection H as <- <-. reflexivity.
  - intros k i f kw [H|[H|[]]] Hn Hk; [discriminate|]. injection H as <- <- <-.
    assert (Hx : dget kw "x" = Some 5%Z).
    { apply In_dget; [exact Hn|]. apply Hk. exists vx. split; [left; reflexivity|split; reflexivity]. }
    assert (Ha : dget kw "a" = Some 2%Z).
    { apply In_dget; [exact Hn|]. apply Hk. exists pa. split; [right; left; reflexivity|split; reflexivity]. }
    assert (Hl : List.length kw = 2).
    { assert (Hp : Permutation (dkeys kw) ["x"; "a"]).
      { apply NoDup_Permutation; [exact Hn|apply nodupb_iff; vm_compute; reflexivity|]. intros n. split.
        - intros H. apply in_map_iff in H as ([n' v] & E & H). simpl in E. subst n'. apply Hk in H as (s & [<-|[<-|[]]] & -> & _); simpl; auto.
        - intros [<-|[<-|[]]]; eapply dget_Some_key; eassumption. }
      apply Permutation_length in Hp. unfold dkeys in Hp. rewrite map_length in Hp. exact Hp. }
    unfold nx_f, dlook. rewrite Hx, Ha, Hl. reflexivity.
  - reflexivity.
Qed.
Example C67_nontrivial :
  proper_numerical nx_items nx_user /\ nsolution Zalg nx_items nx_user nx_val nx_val /\
  exists m, init_numerical oid nx_items nx_user = Ok m /\ m_indep m = [vx] /\ m_params m = [pa; pb] /\
    supplies (named nx_val (m_indep m ++ m_params m)) [5%Z] [("b", 3%Z); ("a", 2%Z)] /\
    call Zalg oid m [5%Z] [("b", 3%Z); ("a", 2%Z)] = Ok {| mo_vars := [vy; vz]; mo_out := [10%Z; 13%Z] |}.
Proof.
  split; [exact nx_proper|]. split; [exact nx_solution|]. eexists. split; [vm_compute; reflexivity|]. split; [reflexivity|]. split; [reflexivity|].
  split; [exists 1; split; [reflexivity|]; apply perm_swap|]. vm_compute. reflexivity.
Qed.

(** ** C68.  Numerical models are equal when they have the same components, these have the
    same dependencies, and are the same expressions or the same function objects. *)
Theorem C68_numerical_equality :
  forall V ord1 ord2 (i1 i2 : dict sym (comp (V:=V))) u1 u2 m1 m2,
    set_order ord1 -> set_order ord2 -> proper_numerical i1 u1 -> proper_numerical i2 u2 ->
    init_numerical ord1 i1 u1 = Ok m1 -> init_numerical ord2 i2 u2 = Ok m2 ->
    exists b, num_eq m1 m2 = Ok b /\
      (b = true <-> (forall k, In k (dkeys i1) <-> In k (dkeys i2)) /\
                    (forall k s, depends i1 u1 k s <-> depends i2 u2 k s) /\
                    (forall k c1 c2, In (k, c1) i1 -> In (k, c2) i2 ->
                       (exists e, c1 = CExpr e /\ c2 = CExpr e) \/ (exists i f g, c1 = CFun i f /\ c2 = CFun i g))).
Proof. intros V. exact numerical_equality. Qed.
Print Assumptions C68_numerical_equality.

Example C68_nontrivial :
  exists m1 m2 m3, init_numerical oid nx_items nx_user = Ok m1 /\
    init_numerical (fun l => rev l) (rev nx_items) [(vy, [pa; vx])] = Ok m2 /\
    init_numerical oid [(vz, CExpr (EAdd (ESym vy) (ESym pb))); (vy, CFun 1 nx_f)] nx_user = Ok m3 /\
    num_eq m1 m2 = Ok true /\ num_eq m1 m3 = Ok false.
Proof. do 3 eexists. split; [vm_compute; reflexivity|]. split; [vm_compute; reflexivity|]. split; [vm_compute; reflexivity|]. split; vm_compute; reflexivity. Qed.
