(** * DerModel: names that keep the Jacobian and Hessian models free of name clashes. *)
From Coq Require Import Reals.
From Coquelicot Require Import Coquelicot.
From Verif Require Import PyBase PyFacts Expr ExprR Model ModelSpec ModelFacts CallFacts Jacobian JacFacts JacAnalysis JacLemmas DerNames.
Local Open Scope R_scope.
Local Open Scope list_scope.

(** Names such as users write them: letters and digits without underscores, starting with a letter; for second
    derivatives, parameters without the letter d. *)
Definition simple_names {V} (items : dict sym (comp (V:=V))) : Prop :=
  distinct_names items /\ forall s, symbol_of items s -> has_us (sname s) = false /\ starts_ok (sname s) = true.
Definition parameters_without_d {V} (items : dict sym (comp (V:=V))) : Prop :=
  forall p, symbol_of items p -> is_par p = true -> has_d (sname p) = false.

Lemma us_ud s : has_us s = false -> has_ud s = false.
Proof.
  induction s as [|c s IH]; simpl; intros H; [reflexivity|]. apply orb_false_iff in H as [H1 H2]. rewrite H1, (IH H2). reflexivity.
Qed.

Section Names.
  Context (simp : expr -> expr) (ord1 ord2 : list sym -> list sym) (items : dict sym (comp (V:=R))) (m : model (V:=R)).
  Hypothesis Hsimp : simp_ok simp.
  Hypothesis Ho1 : set_order ord1.
  Hypothesis Ho2 : set_order ord2.
  Hypothesis Hd : is_dict items.
  Hypothesis Hself : no_self_reference items.
  Hypothesis Hplain : plain_model items.
  Hypothesis Hi : init_model ord1 items = Ok m.
  Hypothesis Hs : simple_names items.

  Lemma par_symbol p : In p (m_params m) -> symbol_of items p /\ is_par p = true.
  Proof using Ho1 Hd Hi. intros Hp. apply (in_params_iff ord1 items m Ho1 Hd Hi) in Hp. tauto. Qed.
  Lemma below_names X (AX : above items X) s : symbol_of X s -> is_der s = false -> symbol_of items s.
  Proof using Ho1 Ho2 Hd Hself Hplain Hi Hsimp.
    intros [Hk|(k & Hr)] Hder.
    - destruct (ab_keys _ _ AX s Hk) as [H|(y & n & qs & -> & _)]; [left; exact H|discriminate].
    - pose proof (ab_refers _ _ AX k s Hr) as Hb. destruct s; try discriminate; right; eexists; exact Hb.
  Qed.
  Lemma der_key X (AX : above items X) s : symbol_of X s -> is_der s = true -> In s (dkeys X).
  Proof using. intros [Hk|(k & Hr)] Hder; [exact Hk|]. eapply (ab_der _ _ AX); eassumption. Qed.
  Lemma der_var y : In (SVar y) (dkeys items) -> var_name_ok y.
  Proof using Hs. intros Hy. destruct (proj2 Hs (SVar y) (or_introl Hy)) as [H1 H2]. split; [apply us_ud; exact H1|exact H2]. Qed.

  Lemma jacobian_names J : jacobian_items simp ord2 m = Ok J -> distinct_names J.
  Proof using Hsimp Ho1 Ho2 Hd Hself Hplain Hi Hs.
    intros HJ. unfold jacobian_items in HJ. apply bind_Ok in HJ as (v2f & Hv & HJ).
    pose proof (set_params_self ord1 items m Hi) as Hp. destruct Hplain as [Hkeys Hnoder].
    pose proof (above_J simp (proj1 Hsimp) ord1 ord2 items m m (m_params m) v2f Ho1 Ho2 Hd Hself Hkeys Hnoder Hi Hp Hv J HJ) as AJ.
    assert (Hdk : forall s, symbol_of J s -> is_der s = true -> exists y p, s = SDer y [sname p] /\ In p (m_params m) /\ In (SVar y) (dkeys items)).
    { intros s H1 H2. pose proof (der_key J AJ s H1 H2) as Hk.
      destruct (J_key_inv simp ord1 items m m (m_params m) v2f Hd Hkeys Hi Hp J HJ s Hk) as [H|H]; [|exact H].
      destruct (Hkeys s H) as (n & ->). discriminate. }
    intros s t H1 H2 He. destruct (is_der s) eqn:E1, (is_der t) eqn:E2.
    - destruct (Hdk s H1 E1) as (y & p & -> & Hpp & Hy). destruct (Hdk t H2 E2) as (z & q & -> & Hq & Hz).
      destruct (first_order_names y z (sname p) (sname q) (proj1 (der_var y Hy)) (proj1 (der_var z Hz)) He) as [-> ->]. reflexivity.
    - exfalso. destruct (Hdk s H1 E1) as (y & p & -> & Hpp & Hy). apply (derivative_not_plain y [sname p] (sname t)); [|exact He].
      apply (proj2 Hs). apply (below_names J AJ t H2 E2).
    - exfalso. destruct (Hdk t H2 E2) as (y & p & -> & Hpp & Hy). apply (derivative_not_plain y [sname p] (sname s)); [|symmetry; exact He].
      apply (proj2 Hs). apply (below_names J AJ s H1 E1).
    - apply (proj1 Hs); [apply (below_names J AJ s H1 E1)|apply (below_names J AJ t H2 E2)|exact He].
  Qed.

  Lemma hessian_names H : parameters_without_d items -> hessian_items simp ord2 m = Ok H -> distinct_names H.
  Proof using Hsimp Ho1 Ho2 Hd Hself Hplain Hi Hs.
    intros Hnd HH. unfold hessian_items in HH. apply bind_Ok in HH as (v2f & Hv & HH). apply bind_Ok in HH as (J & HJ & HH).
    pose proof (set_params_self ord1 items m Hi) as Hp. destruct Hplain as [Hkeys Hnoder].
    pose proof (above_H simp (proj1 Hsimp) ord1 ord2 items m m (m_params m) v2f Ho1 Ho2 Hd Hself Hkeys Hnoder Hi Hp Hv J H HJ HH) as AH.
    assert (Hpd : forall p, In p (m_params m) -> has_d (sname p) = false) by (intros p Hpp; destruct (par_symbol p Hpp); apply Hnd; assumption).
    assert (Hdk : forall s, symbol_of H s -> is_der s = true -> exists y ps, s = SDer y ps /\ order_12 ps /\ (forall n, In n ps -> has_d n = false) /\ In (SVar y) (dkeys items)).
    { intros s H1 H2. pose proof (der_key H AH s H1 H2) as Hk.
      destruct (H_key_inv simp ord1 items m m (m_params m) v2f Hd Hkeys Hi Hp J H HJ HH s Hk) as [H0|[(y & p & -> & Hpp & Hy)|(y & p & q & -> & Hpp & Hq & Hy)]].
      - destruct (Hkeys s H0) as (n & ->). discriminate.
      - exists y, [sname p]. split; [reflexivity|]. split; [left; reflexivity|]. split; [intros n [<-|[]]; auto|exact Hy].
      - exists y, [sname p; sname q]. split; [reflexivity|]. split; [right; reflexivity|]. split; [intros n [<-|[<-|[]]]; auto|exact Hy]. }
    intros s t H1 H2 He. destruct (is_der s) eqn:E1, (is_der t) eqn:E2.
    - destruct (Hdk s H1 E1) as (y & ps & -> & O1 & D1 & Hy). destruct (Hdk t H2 E2) as (z & qs & -> & O2 & D2 & Hz).
      apply (derivative_names y z ps qs (der_var y Hy) (der_var z Hz) O1 O2); [|exact He]. intros n [Hn|Hn]; auto.
    - exfalso. destruct (Hdk s H1 E1) as (y & p & -> & _). apply (derivative_not_plain y p (sname t)); [|exact He].
      apply (proj2 Hs). apply (below_names H AH t H2 E2).
    - exfalso. destruct (Hdk t H2 E2) as (y & p & -> & _). apply (derivative_not_plain y p (sname s)); [|symmetry; exact He].
      apply (proj2 Hs). apply (below_names H AH s H1 E1).
    - apply (proj1 Hs); [apply (below_names H AH s H1 E1)|apply (below_names H AH t H2 E2)|exact He].
  Qed.
End Names.

(** whatever is returned is the derivative *)
Lemma returned_jacobian simp ord1 ord2 (items : dict sym (comp (V:=R))) m sol inp args kw out :
  simp_ok simp -> set_order ord1 -> set_order ord2 -> is_dict items -> no_self_reference items -> plain_model items -> simple_names items ->
  init_model ord1 items = Ok m -> (forall inp', solution Ralg items inp' (sol inp')) ->
  (forall k e, In (k, CExpr e) items -> defined (sol inp) e) ->
  supplies (named inp (m_indep m ++ m_params m)) args kw -> eval_jacobian Ralg simp ord2 m args kw = Ok out ->
  exists d : sym -> sym -> R,
    (forall v p, In v (dkeys items) -> In p (m_params m) -> is_derive (fun t => sol (set_input inp p t) v) (inp p) (d v p)) /\
    out = map (fun v => map (d v) (m_params m)) (dkeys (m_dict m)).
Proof.
  intros H1 H2 H3 H4 H5 H6 H7 Hi Hsol Hdef Hsup Ho.
  pose proof Ho as Ho'. unfold eval_jacobian in Ho'. apply bind_Ok in Ho' as (jm & Hjm & _). unfold jacobian_model in Hjm. apply bind_Ok in Hjm as (J & HJ & _).
  destruct (jacobian_spec simp ord1 ord2 items m J sol inp H1 H2 H3 H4 H5 H6 Hi HJ (jacobian_names simp ord1 ord2 items m H1 H2 H3 H4 H5 H6 Hi H7 J HJ) Hsol Hdef) as (d & D1 & D2).
  exists d. split; [exact D1|]. specialize (D2 args kw Hsup). congruence.
Qed.
Lemma returned_hessian simp ord1 ord2 (items : dict sym (comp (V:=R))) m sol inp eps args kw out :
  simp_ok simp -> set_order ord1 -> set_order ord2 -> is_dict items -> no_self_reference items -> plain_model items -> simple_names items -> parameters_without_d items ->
  init_model ord1 items = Ok m -> (forall inp', solution Ralg items inp' (sol inp')) -> 0 < eps ->
  (forall inp', (forall s, Rabs (inp' s - inp s) < eps) -> (forall s, is_par s = false -> inp' s = inp s) ->
     forall k e, In (k, CExpr e) items -> defined (sol inp') e) ->
  supplies (named inp (m_indep m ++ m_params m)) args kw -> eval_hessian Ralg simp ord2 m args kw = Ok out ->
  exists h : sym -> sym -> sym -> R,
    (forall v p q, In v (dkeys items) -> In p (m_params m) -> In q (m_params m) ->
       is_derive (fun u => Derive (fun t => sol (set_input (set_input inp q u) p t) v) (set_input inp q u p)) (inp q) (h v p q)) /\
    (forall v p q, In v (dkeys items) -> In p (m_params m) -> In q (m_params m) -> h v p q = h v q p) /\
    out = map (fun v => map (fun p => map (h v p) (m_params m)) (m_params m)) (dkeys (m_dict m)).
Proof.
  intros H1 H2 H3 H4 H5 H6 H7 H8 Hi Hsol He Hdef Hsup Ho.
  pose proof Ho as Ho'. unfold eval_hessian in Ho'. apply bind_Ok in Ho' as (hm & Hhm & _). unfold hessian_model in Hhm. apply bind_Ok in Hhm as (H & HH & _).
  destruct (hessian_spec simp ord1 ord2 items m H sol inp eps H1 H2 H3 H4 H5 H6 Hi HH (hessian_names simp ord1 ord2 items m H1 H2 H3 H4 H5 H6 Hi H7 H H8 HH) Hsol He Hdef) as (d & D1 & D2 & D3).
  exists d. split; [exact D1|]. split; [exact D2|]. specialize (D3 args kw Hsup). congruence.
Qed.
