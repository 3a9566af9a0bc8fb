(** * ArrGen: what a model, its Jacobian and its Hessian return for arrays, when [Q k s]
    says that [s] is a suitable shape for the symbol [k]. *)
From Coq Require Import Reals Lra Lia.
From Coquelicot Require Import Coquelicot.
From Verif Require Import PyBase PyFacts Toposort ToposortFacts Signature SignatureFacts Expr Model ModelSpec ModelFacts CallFacts InitFacts ConstraintFacts AsConstraint ModelMisc ExprR Jacobian JacFacts JacAnalysis JacSecond JacLemmas Cast NumPy NumFacts Objective ObjSpec ObjFacts ObjLS ArrModel ArrSpec ArrFacts.
Local Open Scope R_scope.

Lemma above_items {V} ord (items : dict sym (comp (V:=V))) m : is_dict items -> plain_model items -> init_model ord items = Ok m -> above items items.
Proof.
  intros Hd [Hk Hn] Hi. constructor; auto.
  - exact (proj1 (init_model_inv _ _ _ Hi)).
  - intros x t Hr. assert (Hx : In x (dkeys items)) by (destruct Hr as (e & Hin & _); eapply key_of; exact Hin).
    destruct (Hk x Hx) as (n & ->). pose proof (Hn _ _ Hr) as Ht. destruct t; [exact Hr|exact Hr|discriminate].
  - intros x t Hr Ht. rewrite (Hn _ _ Hr) in Ht. discriminate.
Qed.

Lemma fits_antisym s : forall t, fits s t = true -> fits t s = true -> s = t.
Proof.
  induction s as [|d s IH]; intros [|e t] H1 H2; try reflexivity; try discriminate.
  apply fits_cons in H1 as [H1 H1']. apply fits_cons in H2 as [H2 H2']. rewrite (IH t H1' H2').
  destruct H1 as [-> | ->]; [reflexivity|]. destruct H2 as [-> | ->]; reflexivity.
Qed.
Lemma fits_atleast a b : fits (shp a) (shp b) = true -> fits (shp (atleast_1d a)) (shp (atleast_1d b)) = true.
Proof.
  unfold atleast_1d. destruct (shp a) as [|d s] eqn:Ea; destruct (shp b) as [|e t] eqn:Eb; intros H.
  - unfold newaxis; cbn [shp]. rewrite Ea, Eb. reflexivity.
  - unfold newaxis; cbn [shp]. rewrite Ea, Eb. simpl. rewrite orb_true_r. reflexivity.
  - discriminate.
  - rewrite Ea, Eb. exact H.
Qed.

Lemma map_fst_combine_map {A B} (f : A -> B) l : map fst (combine l (map f l)) = l.
Proof. induction l as [|x l IH]; simpl; [reflexivity|]. rewrite IH. reflexivity. Qed.

Lemma nd_solution_at (Q : sym -> list nat -> Prop) ord (X : dict sym (comp (V:=res nd))) m inp val valR :
  (forall k, In k (dkeys X) -> Q k []) -> (forall k, In k (dkeys X) -> forall s t, Q k s -> Q k t -> exists u, bshape s t = Some u /\ Q k u) ->
  (forall k s a, refers X k s -> Q s a -> Q k a) ->
  set_order ord -> is_dict X -> no_self_reference X -> init_model ord X = Ok m ->
  solution NDalg X (fun s => Ok (inp s)) val ->
  (forall i, solution Ralg (icast X) (fun s => elem (inp s) i) (valR i)) ->
  (forall s, symbol_of X s -> ~ In s (dkeys X) -> Q s (shp (inp s))) ->
  forall s, symbol_of X s -> pt (Q s) valR (val s) s.
Proof.
  intros Q0 Q2 Qr Ho Hd Hself Hi [S1 S2] SR Hq. apply (model_ind ord X m Ho Hd Hself Hi). intros x Hx IH.
  destruct (in_dec eq_dec x (dkeys X)) as [Hk|Hk].
  - pose proof (Q0 x Hk) as H0. pose proof (Q2 x Hk) as H2. apply in_map_iff in Hk as ([k c] & Hk & Hin). simpl in Hk; subst k.
    destruct (proj1 (init_model_inv _ _ _ Hi) x c Hin) as (e & ->).
    rewrite (S1 x e Hin). destruct (nd_eval (Q x) H0 H2 val valR e) as (a & E & Qa & Pa).
    { intros s Hs. assert (Hr : refers X x s) by (exists e; split; [exact Hin|left; exact Hs]).
      destruct (IH s Hr) as (a & Ea & Qa & Pa). exists a. split; [exact Ea|]. split; [exact (Qr x s _ Hr Qa)|exact Pa]. }
    exists a. split; [exact E|]. split; [exact Qa|]. intros i. rewrite Pa. symmetry. apply (proj1 (SR i)). apply in_icast; exact Hin.
  - rewrite (S2 x Hk). exists (inp x). split; [reflexivity|]. split; [apply Hq; assumption|].
    intros i. symmetry. apply (proj2 (SR i)). rewrite dkeys_icast. exact Hk.
Qed.

Section Arr.
  Notation comp := (comp (V:=res nd)).
  Context (simp : expr -> expr) (ord1 ord2 : list sym -> list sym) (items : dict sym comp) (m0 m : amodel) (ps : list sym).
  Hypothesis Hsimp : simp_ok simp.
  Hypothesis Ho1 : set_order ord1.
  Hypothesis Ho2 : set_order ord2.
  Hypothesis Hd : is_dict items.
  Hypothesis Hself : no_self_reference items.
  Hypothesis Hplain : plain_model items.
  Hypothesis Hpow : forall k e, In (k, CExpr e) items -> proper_powers e.
  Hypothesis Hi : init_model ord1 items = Ok m0.
  Hypothesis Hp : set_params m0 ps = Ok m.
  Hypothesis Hps : forall p, In p ps -> is_par p = true.
  Hypothesis Hsub : forall p, In p (m_params m0) -> In p ps.
  Context (Q : sym -> list nat -> Prop).
  Hypothesis Q0 : forall k, In k (dkeys items) -> Q k [].
  Hypothesis Q2 : forall k, In k (dkeys items) -> forall s t, Q k s -> Q k t -> exists u, bshape s t = Some u /\ Q k u.
  Hypothesis Qr : forall k s a, refers items k s -> Q s a -> Q k a.
  Let Hkeys := proj1 Hplain.
  Let Hnoder := proj2 Hplain.

  Definition inputs_ok (inp : sym -> nd) : Prop := forall s, In s (m_indep m ++ m_params m) -> Q s (shp (inp s)).

  Lemma input_symbol X s : above items X -> symbol_of X s -> ~ In s (dkeys X) -> In s (m_indep m ++ m_params m).
  Proof using Hp Hi Ho1 Hd Hplain Hsub.
    intros AX Hs Hk. destruct (set_params_fields m0 m ps Hp) as (_ & _ & E3 & E4). rewrite E3, E4.
    assert (Hder : is_der s = false).
    { destruct (is_der s) eqn:E; [|reflexivity]. destruct Hs as [Hs|(k & Hr)]; [contradiction|]. exfalso. apply Hk. eapply (ab_der _ _ AX); eassumption. }
    assert (Hss : symbol_of items s) by (apply (above_symbols items Hkeys Hnoder X AX s Hder); exact Hs).
    assert (Hks : ~ In s (dkeys items)) by (intros H; apply Hk; apply (above_key_iff items X AX s Hder); exact H).
    apply in_or_app. destruct (is_par s) eqn:Ep.
    - right. apply Hsub. apply (in_params_iff ord1 items m0 Ho1 Hd Hi). split; [exact Hss|]. split; [exact Ep|].
      intros t (e & Hin & _). exfalso. apply Hks. eapply key_of; exact Hin.
    - left. apply (in_indep_iff ord1 items m0 Ho1 Hd Hi). auto.
  Qed.

  Lemma arr_above X ordx : above items X -> distinct_names X -> (forall k p, In k (dkeys X) -> In p ps -> sname k <> sname p) -> set_order ordx ->
    exists xm xm', init_model ordx X = Ok xm /\ set_params xm ps = Ok xm' /\
      forall inp, inputs_ok inp -> exists (o : dict sym nd) (v : sym -> res nd),
        (forall d, (forall n, dget d n = dget (named inp (m_indep m ++ m_params m)) n) -> arr_call ord2 xm' d = Ok o) /\
        dkeys o = sort_by sname (dkeys X) /\ solution NDalg X (fun s => Ok (inp s)) v /\
        (forall s, symbol_of X s -> exists a, v s = Ok a /\ Q (base s) (shp a) /\
           forall valR, (forall i, solution Ralg (icast X) (fun s => elem (inp s) i) (valR i)) -> forall i, elem a i = valR i s) /\
        (forall k, In k (dkeys X) -> dget o k = Some (atleast_1d (getnd (v k)))).
  Proof using Ho1 Ho2 Hd Hself Hplain Hi Hp Hsub Q0 Q2 Qr.
    intros AX Hn Hpn Hox.
    destruct (above_call NDalg ord1 items m0 m ps Ho1 Hd Hself Hkeys Hnoder Hi Hp X AX Hn ordx Hox Hsub Hpn) as (xm & xm' & Hx & Hx' & Hcall).
    exists xm, xm'. split; [exact Hx|]. split; [exact Hx'|]. intros inp Hinp.
    destruct (Hcall ord2 (fun s => Ok (inp s)) Ho2) as (v & Hv & Hc).
    destruct (solution_map Ralg ordx (icast X) (mcast xm) Hox (is_dict_icast X (ab_dict _ _ AX)) (noself_icast X (above_self items Hself X AX)) (init_icast ordx X xm Hx)) as (solX & HsolX).
    assert (Hbk : forall k, In k (dkeys X) -> In (base k) (dkeys items)).
    { intros k Hk. destruct (ab_keys _ _ AX k Hk) as [H|(y & n & qs & -> & H)]; [|exact H]. destruct (Hkeys k H) as (n & ->). exact H. }
    assert (Hpt : forall valR, (forall i, solution Ralg (icast X) (fun s => elem (inp s) i) (valR i)) -> forall s, symbol_of X s -> pt (Q (base s)) valR (v s) s).
    { intros valR HR. apply (nd_solution_at (fun k => Q (base k)) ordx X xm inp v valR (fun k Hk => Q0 _ (Hbk k Hk)) (fun k Hk => Q2 _ (Hbk k Hk)) (fun k s a Hr => Qr _ _ a (ab_refers _ _ AX _ _ Hr)) Hox (ab_dict _ _ AX) (above_self items Hself X AX) Hx Hv HR).
      intros s Hs Hk. replace (base s) with s; [apply Hinp; apply (input_symbol X s AX Hs Hk)|]. destruct s; try reflexivity. exfalso. apply Hk. destruct Hs as [Hs|(k & Hr)]; [exact Hs|]. eapply (ab_der _ _ AX); [exact Hr|reflexivity]. }
    assert (Hok : forall s, symbol_of X s -> exists a, v s = Ok a /\ Q (base s) (shp a) /\
           forall valR, (forall i, solution Ralg (icast X) (fun s => elem (inp s) i) (valR i)) -> forall i, elem a i = valR i s).
    { intros s Hs. destruct (Hpt (fun i => solX (fun s => elem (inp s) i)) (fun i => HsolX _) s Hs) as (a & Ea & Ga & _).
      exists a. split; [exact Ea|]. split; [exact Ga|]. intros valR HR i.
      destruct (Hpt valR HR s Hs) as (a' & Ea' & _ & Pa). assert (a' = a) by congruence. subst a'. apply Pa. }
    set (keys := sort_by sname (dkeys X)) in *.
    assert (Hkk : forall k, In k keys <-> In k (dkeys X)) by (intros k; apply in_sort_by).
    assert (Hnd : NoDup keys) by (apply NoDup_sort_by; apply (ab_dict _ _ AX)).
    exists (mo_dict {| mo_vars := keys; mo_out := map (fun k => atleast_1d (getnd (v k))) keys |}), v.
    split; [|split; [|split; [exact Hv|split; [exact Hok|]]]].
    - intros d Hdd. rewrite (arr_call_keywords ord2 xm' d _ Hdd). unfold arr_call. fold (oks (named inp (m_indep m ++ m_params m))). rewrite oks_named.
      rewrite (Hc [] (named (fun s => Ok (inp s)) (m_indep m ++ m_params m))); [|exists 0%nat; split; [reflexivity|apply Permutation_refl]].
      cbn [bind mo_out mo_vars].
      assert (Hm : mapM (fun x : res nd => x) (map v keys) = Ok (map (fun k => getnd (v k)) keys)).
      { apply mapM_Ok. assert (Hall : forall k, In k keys -> v k = Ok (getnd (v k))).
        { intros k Hk. apply Hkk in Hk. destruct (Hok k (or_introl Hk)) as (a & -> & _). reflexivity. }
        clear -Hall. induction keys as [|k l IH]; simpl; constructor; [apply Hall; left; reflexivity|apply IH; intros; apply Hall; right; assumption]. }
      rewrite Hm. cbn [bind]. rewrite map_map. reflexivity.
    - unfold mo_dict. cbn [mo_vars mo_out]. rewrite dict_of_nodup; unfold dkeys.
      + apply map_fst_combine_map.
      + rewrite map_fst_combine_map. exact Hnd.
    - intros k Hk. apply (dget_call_out keys (fun k => atleast_1d (getnd (v k)))); [exact Hnd|apply Hkk; exact Hk].
  Qed.

  (** derivative components never have more elements than the component itself *)
  Lemma der_fits X inp v : above items X -> solution NDalg X (fun s => Ok (inp s)) v ->
    (forall s, symbol_of X s -> exists a, v s = Ok a) ->
    forall z, symbol_of items z -> forall x, symbol_of X x -> base x = z ->
      exists a b, v x = Ok a /\ v z = Ok b /\ fits (shp a) (shp b) = true.
  Proof using Ho1 Hd Hself Hplain Hpow Hi.
    intros AX [S1 S2] Hok.
    assert (Hup : forall s, symbol_of items s -> symbol_of X s).
    { intros s Hs. apply (above_symbols items Hkeys Hnoder X AX); [|exact Hs]. destruct Hs as [Hk|(k & Hr)]; [destruct (Hkeys s Hk) as (n & ->); reflexivity|].
      eapply Hnoder; exact Hr. }
    apply (model_ind ord1 items m0 Ho1 Hd Hself Hi (fun z => forall x, symbol_of X x -> base x = z ->
      exists a b, v x = Ok a /\ v z = Ok b /\ fits (shp a) (shp b) = true)).
    intros z Hz IH x Hx Hb. destruct (Hok z (Hup z Hz)) as (b & Eb). destruct (Hok x Hx) as (a & Ea). exists a, b. split; [exact Ea|]. split; [exact Eb|].
    destruct (eq_dec x z) as [->|Hne]; [assert (a = b) by congruence; subst; apply fits_refl|].
    assert (Hder : is_der x = true) by (destruct x; simpl in Hb; [congruence|congruence|reflexivity]).
    assert (Hxk : In x (dkeys X)) by (destruct Hx as [H|(k & Hr)]; [exact H|eapply (ab_der _ _ AX); eassumption]).
    assert (Hzk : In z (dkeys items)).
    { destruct (ab_keys _ _ AX x Hxk) as [H|(y & n & qs & -> & H)]; [destruct (Hkeys x H) as (n & ->); discriminate|]. simpl in Hb. subst z. exact H. }
    apply in_map_iff in Hzk as ([z' c] & Hq & Hin). simpl in Hq; subst z'. destruct (proj1 (init_model_inv _ _ _ Hi) z c Hin) as (e & ->).
    apply in_map_iff in Hxk as ([x' c] & Hq & HinX). simpl in Hq; subst x'. destruct (ab_sym _ _ AX x c HinX) as (ex & ->).
    pose proof (S1 _ _ HinX) as Ex. pose proof (S1 _ _ (ab_incl _ _ AX _ _ Hin)) as Ez.
    rewrite Eb in Ez. symmetry in Ez. rewrite Ea in Ex. symmetry in Ex.
    destruct (nd_eval (fun s => fits s (shp b) = true) eq_refl (fun s t H1 H2 => fits_lub s t (shp b) H1 H2) v (fun i s => elem (getnd (v s)) i) ex) as (a' & Ea' & Fa & _).
    - intros t Ht. assert (Hr : refers X x t) by (exists ex; split; [exact HinX|left; exact Ht]).
      pose proof (ab_refers _ _ AX _ _ Hr) as Hr'. rewrite Hb in Hr'.
      destruct (IH (base t) Hr' t (or_intror (ex_intro _ x Hr)) eq_refl) as (at' & bt & E1 & E2 & F1).
      assert (Ho : In (base t) (occs e)).
      { destruct Hr' as (e0 & Hin0 & Hm). assert (Hee : e0 = e).
        { pose proof (In_dget _ _ _ Hd Hin0) as G1. pose proof (In_dget _ _ _ Hd Hin) as G2. congruence. }
        subst e0. destruct Hm as [Hm|(y & qs & Hm & _)]; [exact Hm|]. exfalso.
        assert (Hf : is_der (SDer y qs) = false) by (apply (Hnoder z); exists e; split; [exact Hin|left; exact Hm]). discriminate. }
      destruct (nd_eval_grows v e (Hpow _ _ Hin) b Ez (base t) Ho) as (bt' & E3 & F2). assert (bt' = bt) by congruence. subst bt'.
      exists at'. split; [exact E1|]. split; [eapply fits_trans; eassumption|]. intros i. rewrite E1. reflexivity.
    - assert (a' = a) by congruence. subst a'. exact Fa.
  Qed.

  Definition stacked (c : nd) (es : list nd) (j : nd) : Prop :=
    shp j = shp c ++ [List.length es] /\ forall i k, List.length i = List.length (shp c) -> (k < List.length es)%nat ->
      val j (i ++ [k]) = val (nth k es (scalar 0)) i.
  Lemma np_stack_ok c es : es <> [] -> (forall e, In e es -> shp e = shp c) -> exists j, np_stack es = Ok j /\ stacked c es j.
  Proof.
    intros Hne Hsh. destruct es as [|e es']; [congruence|]. unfold np_stack.
    assert (Hf : forallb (fun b => if list_eq_dec Nat.eq_dec (shp b) (shp e) then true else false) (e :: es') = true).
    { apply forallb_forall. intros b Hb. rewrite (Hsh b Hb), (Hsh e (or_introl eq_refl)). destruct (list_eq_dec Nat.eq_dec (shp c) (shp c)); congruence. }
    rewrite Hf. eexists. split; [reflexivity|]. pose proof (Hsh e (or_introl eq_refl)) as He. split.
    - cbn [shp]. rewrite He. reflexivity.
    - intros i k Hl Hk. cbn [val]. rewrite He, <- Hl. rewrite app_nth2 by lia. rewrite Nat.sub_diag. change (nth 0 [k] 0%nat) with k.
      rewrite firstn_app, firstn_all, Nat.sub_diag, firstn_O, app_nil_r. f_equal. apply nth_indep; exact Hk.
  Qed.

  Lemma arr_entry_ok o key a c : dget o key = Some a -> fits (shp a) (shp c) = true ->
    arr_entry o key (shp c) = Ok {| shp := shp c; val := elem a |}.
  Proof. intros Hg Hf. unfold arr_entry, broadcast_to. rewrite Hg, Hf. reflexivity. Qed.

  (** *** the answers of the model to the inputs [inp] *)
  Definition calls (f : dict string nd -> res (dict sym nd)) (inp : sym -> nd) (o : dict sym nd) : Prop :=
    forall d, (forall n, dget d n = dget (named inp (m_indep m ++ m_params m)) n) -> f d = Ok o.
  Definition solves_for (X : dict sym comp) (solX : (sym -> R) -> sym -> R) : Prop := forall inp, solution Ralg (icast X) inp (solX inp).
  Definition value_spec sol (inp : sym -> nd) (o : dict sym nd) : Prop :=
    calls (arr_call ord2 m) inp o /\ dkeys o = sort_by sname (dkeys items) /\
    exists v, solution NDalg items (fun s => Ok (inp s)) v /\
    forall k, In k (dkeys items) -> exists a, v k = Ok a /\ dget o k = Some (atleast_1d a) /\ Q k (shp a) /\
      (forall i, elem a i = sol (at_index inp i) k) /\
      forall s, refers items k s -> ~ In s (dkeys items) -> fits (shp (inp s)) (shp a) = true.
  Definition jac_spec solJ (inp : sym -> nd) (o jac : dict sym nd) : Prop :=
    calls (arr_jac simp ord2 m) inp jac /\ dkeys jac = dkeys (m_dict m) /\
    forall k, In k (dkeys items) -> exists c j, dget o k = Some c /\ dget jac k = Some j /\ shp j = shp c ++ [List.length ps] /\
      (forall i q p, List.length i = List.length (shp c) -> nth_error ps q = Some p ->
        val j (i ++ [q]) = solJ (at_index inp i) (der_of k (sname p))) /\
      forall i p, In p ps -> solJ (at_index inp (bidx (shp c) i)) (der_of k (sname p)) = solJ (at_index inp i) (der_of k (sname p)).
  Definition hess_spec solH (inp : sym -> nd) (o hess : dict sym nd) : Prop :=
    calls (arr_hess simp ord2 m) inp hess /\ dkeys hess = dkeys (m_dict m) /\
    forall k, In k (dkeys items) -> exists c j, dget o k = Some c /\ dget hess k = Some j /\ shp j = shp c ++ [List.length ps; List.length ps] /\
      forall i q1 q2 p1 p2, List.length i = List.length (shp c) -> nth_error ps q1 = Some p1 -> nth_error ps q2 = Some p2 ->
        val j (i ++ [q2; q1]) = solH (at_index inp i) (der_of (der_of k (sname p1)) (sname p2)).

  Lemma mo_dict_map keys (f : sym -> nd) : NoDup keys -> dkeys (mo_dict {| mo_vars := keys; mo_out := map f keys |}) = keys /\
    forall k, In k keys -> dget (mo_dict {| mo_vars := keys; mo_out := map f keys |}) k = Some (f k).
  Proof using.
    intros Hnd. split; [|intros k Hk; apply (dget_call_out keys f); assumption].
    unfold mo_dict. cbn [mo_vars mo_out]. rewrite dict_of_nodup; unfold dkeys; rewrite map_fst_combine_map; [reflexivity|exact Hnd].
  Qed.
  Lemma mapM_stack {A} (f : A -> res nd) (g : A -> nd) l : (forall x, In x l -> f x = Ok (g x)) -> mapM f l = Ok (map g l).
  Proof using.
    intros H. apply mapM_Ok. induction l as [|x l IH]; simpl; constructor; [apply H; left; reflexivity|apply IH; intros; apply H; right; assumption].
  Qed.

  Lemma arr_value sol inp : solves_for items sol -> distinct_names items -> (forall k p, In k (dkeys items) -> In p ps -> sname k <> sname p) ->
    inputs_ok inp -> exists o, value_spec sol inp o.
  Proof using Ho1 Ho2 Hd Hself Hplain Hpow Hi Hp Hsub Q0 Q2 Qr.
    intros Hsol Hn Hpn Hinp.
    pose proof (above_items ord1 items m0 Hd Hplain Hi) as AX.
    destruct (arr_above items ord1 AX Hn Hpn Ho1) as (xm & xm' & Hx & Hx' & Hc).
    assert (xm = m0) by congruence. subst xm. assert (xm' = m) by congruence. subst xm'.
    destruct (Hc inp Hinp) as (o & v & H1 & H2 & H3 & H4 & H5). exists o. split; [exact H1|]. split; [exact H2|].
    exists v. split; [exact H3|].
    intros k Hk. destruct (H4 k (or_introl Hk)) as (a & Ea & Ga & Pa). assert (Hbs : base k = k) by (destruct (Hkeys k Hk) as (n & ->); reflexivity). rewrite Hbs in Ga. clear Hbs. exists a. rewrite (H5 k Hk), Ea. split; [reflexivity|]. split; [reflexivity|]. split; [exact Ga|]. split.
    - intros i. exact (Pa (fun i => sol (at_index inp i)) (fun i => Hsol _) i).
    - intros s (e & Hin & Hm) Hsk. destruct Hm as [Hm|(y & qs & Hm & _)].
      + pose proof (proj1 H3 _ _ Hin) as E. rewrite Ea in E. symmetry in E.
        destruct (nd_eval_grows v e (Hpow _ _ Hin) a E s Hm) as (b & Eb & Fb). rewrite (proj2 H3 s Hsk) in Eb. injection Eb as <-. exact Fb.
      + assert (Hf : is_der (SDer y qs) = false) by (apply (Hnoder k); exists e; split; [exact Hin|left; exact Hm]). discriminate.
  Qed.

  (** common to Jacobian and Hessian: the derived model's components *)
  Lemma arr_derived X solX v2f inp o sol : above items X -> distinct_names X -> (forall k p, In k (dkeys X) -> In p ps -> sname k <> sname p) ->
    solves_for X solX -> value_spec sol inp o -> inputs_ok inp -> vars_as_functions ord2 m = Ok v2f ->
    exists xm xm' oX, init_model ord2 X = Ok xm /\ set_params xm ps = Ok xm' /\ calls (arr_call ord2 xm') inp oX /\
      forall k, In k (dkeys items) -> exists c, dget o k = Some c /\ dget oX k = Some c /\
        forall x, In x (dkeys X) -> base x = k -> exists e, arr_entry oX x (shp c) = Ok e /\ shp e = shp c /\ (forall i, val e i = solX (at_index inp i) x) /\ forall i, solX (at_index inp (bidx (shp c) i)) x = solX (at_index inp i) x.
  Proof using Ho1 Ho2 Hd Hself Hplain Hpow Hi Hp Hsub Q0 Q2 Qr.
    intros AX Hn Hpn HsX (C1 & C2 & C3) Hinp Hv2f.
    destruct (arr_above X ord2 AX Hn Hpn Ho2) as (xm & xm' & Hx & Hx' & Hc).
    destruct (Hc inp Hinp) as (oX & v & H1 & H2 & H3 & H4 & H5). exists xm, xm', oX. split; [exact Hx|]. split; [exact Hx'|]. split; [exact H1|].
    assert (Hpn' : forall k p, In k (dkeys items) -> In p ps -> sname k <> sname p).
    { intros k p Hk. apply Hpn. apply (above_key_iff items X AX k); [destruct (Hkeys k Hk) as (n & ->); reflexivity|exact Hk]. }
    destruct (arr_above items ord1 (above_items ord1 items m0 Hd Hplain Hi) (items_distinct items Hkeys Hnoder X AX Hn) Hpn' Ho1) as (ym & ym' & Hy & Hy' & Hcy).
    assert (ym = m0) by congruence. subst ym. assert (ym' = m) by congruence. subst ym'.
    destruct (Hcy inp Hinp) as (o' & w & K1 & K2 & K3 & K4 & K5).
    assert (o' = o). { pose proof (K1 _ (fun n => eq_refl)) as E1. pose proof (C1 _ (fun n => eq_refl)) as E2. congruence. } subst o'.
    assert (Hag : forall s, symbol_of items s -> v s = w s).
    { exact (above_agree NDalg ord1 ord2 items m0 m ps v2f Ho1 Ho2 Hd Hself Hkeys Hnoder Hi Hp Hv2f X AX (fun s => Ok (inp s)) w v H3 K3). }
    intros k Hk. exists (atleast_1d (getnd (w k))). split; [apply K5; exact Hk|].
    assert (HkX : In k (dkeys X)) by (apply (above_key_iff items X AX k); [destruct (Hkeys k Hk) as (n & ->); reflexivity|exact Hk]).
    split; [rewrite (H5 k HkX), (Hag k (or_introl Hk)); reflexivity|].
    intros x Hxk Hb.
    destruct (der_fits X inp v AX H3) with (z := k) (x := x) as (a & b & Ea & Eb & Hf);
      [intros s Hs; destruct (H4 s Hs) as (a & Ea & _); eauto|left; exact Hk|left; exact Hxk|exact Hb|].
    rewrite (Hag k (or_introl Hk)) in Eb. rewrite Eb. cbn [getnd].
    eexists. split; [apply (arr_entry_ok oX x (atleast_1d a) (atleast_1d b)); [rewrite (H5 x Hxk), Ea; reflexivity|apply fits_atleast; exact Hf]|].
    cbn [shp val]. split; [reflexivity|].
    destruct (H4 x (or_introl Hxk)) as (a' & Ea' & _ & Pa). assert (a' = a) by congruence. subst a'.
    assert (Hval : forall i, elem (atleast_1d a) i = solX (at_index inp i) x).
    { intros i. rewrite elem_atleast_1d. exact (Pa (fun i => solX (at_index inp i)) (fun i => HsX _) i). }
    split; [exact Hval|]. intros i. rewrite <- !Hval. apply elem_bidx. apply fits_atleast; exact Hf.
  Qed.

  Lemma base_key_der k p : In k (dkeys items) -> base (der_of k p) = k.
  Proof using Hplain. intros Hk. destruct (Hkeys k Hk) as (n & ->). reflexivity. Qed.
  Lemma base_key_der2 k p q : In k (dkeys items) -> base (der_of (der_of k p) q) = k.
  Proof using Hplain. intros Hk. destruct (Hkeys k Hk) as (n & ->). reflexivity. Qed.

  Lemma choose_map {A} (P : A -> nd -> Prop) l : (forall x, In x l -> exists y, P x y) -> exists ys, Forall2 P l ys.
  Proof using.
    induction l as [|x l IH]; intros H; [exists []; constructor|]. destruct (H x (or_introl eq_refl)) as (y & Hy).
    destruct IH as (ys & Hys); [intros; apply H; right; assumption|]. exists (y :: ys). constructor; assumption.
  Qed.
  Lemma Forall2_nth {A B} (P : A -> B -> Prop) l l' : Forall2 P l l' -> forall n x, nth_error l n = Some x -> forall d, P x (nth n l' d).
  Proof using.
    induction 1 as [|a b l l' Hab _ IH]; intros [|n] x Hx d; simpl in *; try discriminate; [injection Hx as <-; exact Hab|].
    apply IH; exact Hx.
  Qed.
  Lemma rows_stack {A} (f : A -> res nd) (c : nd) (l : list A) (V : A -> list nat -> R) (I : list nat -> Prop) : l <> [] ->
    (forall i, I i -> List.length i = List.length (shp c)) ->
    (forall x, In x l -> exists e, f x = Ok e /\ shp e = shp c /\ forall i, I i -> val e i = V x i) ->
    exists j, (es <- mapM f l ;; np_stack es) = Ok j /\ shp j = shp c ++ [List.length l] /\
      forall i q x, I i -> nth_error l q = Some x -> val j (i ++ [q]) = V x i.
  Proof using.
    intros Hne HI H. destruct (choose_map _ l H) as (es & Hes).
    assert (Hlen : List.length es = List.length l) by (clear -Hes; induction Hes; simpl; congruence).
    assert (Hm : mapM f l = Ok es). { apply mapM_Ok. clear -Hes. induction Hes as [|x y l es (Hy & _) _ IH]; constructor; assumption. }
    destruct (np_stack_ok c es) as (j & Hj & Hs & Hvv).
    { intros ->. destruct l; [congruence|discriminate]. }
    { intros e He. destruct (In_nth es e (scalar 0) He) as (n & Hn & Hq). rewrite Hlen in Hn.
      destruct (nth_error l n) as [x|] eqn:Ex; [|apply nth_error_None in Ex; lia].
      destruct (Forall2_nth _ _ _ Hes n x Ex (scalar 0)) as (_ & Hsh & _). rewrite Hq in Hsh. exact Hsh. }
    exists j. rewrite Hm. cbn [bind]. split; [exact Hj|]. split; [rewrite Hs, Hlen; reflexivity|].
    intros i q x Hi' Hq. rewrite Hvv; [|apply HI; exact Hi'|rewrite Hlen; apply nth_error_Some; congruence].
    destruct (Forall2_nth _ _ _ Hes q x Hq (scalar 0)) as (_ & _ & Hval). apply Hval; exact Hi'.
  Qed.

  (** dict of the stacked results *)
  Lemma dict_rows (f : sym -> res nd) (P : sym -> nd -> Prop) (keys : list sym) : NoDup keys -> (forall k, In k keys -> exists j, f k = Ok j /\ P k j) ->
    exists d, (rows <- mapM f keys ;; Ok (mo_dict {| mo_vars := keys; mo_out := rows |})) = Ok d /\ dkeys d = keys /\
      forall k, In k keys -> exists j, dget d k = Some j /\ P k j.
  Proof using.
    intros Hnd H. set (g := fun k => match f k with Ok j => j | Raise _ => scalar 0 end).
    assert (Hg : forall k, In k keys -> f k = Ok (g k) /\ P k (g k)).
    { intros k Hk. destruct (H k Hk) as (j & Hj & HP). unfold g. rewrite Hj. auto. }
    rewrite (mapM_stack f g keys (fun k Hk => proj1 (Hg k Hk))). cbn [bind]. eexists. split; [reflexivity|].
    destruct (mo_dict_map keys g Hnd) as [E1 E2]. split; [exact E1|]. intros k Hk. exists (g k). split; [apply E2; exact Hk|apply Hg; exact Hk].
  Qed.

  Lemma m_dict_nodup : NoDup (dkeys (m_dict m)).
  Proof using Hd Hi Hp. apply (m_dict_dict ord1 items m0 m ps Hd Hi Hp). Qed.

  Lemma arr_jacobian J solJ inp o sol : ps <> [] -> jacobian_items simp ord2 m = Ok J -> distinct_names J ->
    (forall k p, In k (dkeys J) -> In p ps -> sname k <> sname p) ->
    solves_for J solJ -> value_spec sol inp o -> inputs_ok inp -> exists jac, jac_spec solJ inp o jac.
  Proof using Hsimp Ho1 Ho2 Hd Hself Hplain Hpow Hi Hp Hsub Q0 Q2 Qr.
    intros Hne HJ Hn Hpn HsJ Hval Hinp. destruct (set_params_fields m0 m ps Hp) as (_ & _ & E3 & E4).
    pose proof HJ as HJ0. unfold jacobian_items in HJ. apply bind_Ok in HJ as (v2f & Hv & HJ). rewrite E4 in HJ.
    pose proof (above_J simp (proj1 Hsimp) ord1 ord2 items m0 m ps v2f Ho1 Ho2 Hd Hself Hkeys Hnoder Hi Hp Hv J HJ) as AJ.
    destruct (arr_derived J solJ v2f inp o sol AJ Hn Hpn HsJ Hval Hinp Hv) as (xm & xm' & oX & Hx & Hx' & Hc & Hrow).
    assert (Hkey : forall k, In k (dkeys (m_dict m)) -> In k (dkeys items)) by (intros k; apply (m_dict_key ord1 items m0 m ps Hi Hp)).
    destruct (dict_rows (fun v => c <- dlook oX v ;; es <- mapM (fun p => arr_entry oX (der_of v (sname p)) (shp c)) ps ;; np_stack es)
      (fun k j => exists c, dget o k = Some c /\ shp j = shp c ++ [List.length ps] /\ (forall i q p, List.length i = List.length (shp c) -> nth_error ps q = Some p ->
        val j (i ++ [q]) = solJ (at_index inp i) (der_of k (sname p))) /\ forall i p, In p ps -> solJ (at_index inp (bidx (shp c) i)) (der_of k (sname p)) = solJ (at_index inp i) (der_of k (sname p))) (dkeys (m_dict m)) m_dict_nodup) as (jac & Hjac & Hkj & Hall).
    { intros k Hk. apply Hkey in Hk. destruct (Hrow k Hk) as (c & Ec & EcX & He). unfold dlook. rewrite EcX. cbn [bind of_opt].
      destruct (rows_stack (fun p => arr_entry oX (der_of k (sname p)) (shp c)) c ps (fun p i => solJ (at_index inp i) (der_of k (sname p))) (fun i => List.length i = List.length (shp c)) Hne (fun i Hl => Hl)) as (j & Hj & Hsj & Hvj).
      - intros p Hpp. destruct (He (der_of k (sname p))) as (e & He1 & He2 & He3 & _); [|apply base_key_der; exact Hk|exists e; auto].
        destruct (Hkeys k Hk) as (y & ->). apply (J_der_key simp ord1 items m0 m ps v2f Hd Hi Hp J HJ y p Hk Hpp).
      - exists j. split; [exact Hj|]. exists c. split; [exact Ec|]. split; [exact Hsj|]. split; [exact Hvj|].
        intros i p Hpp. destruct (He (der_of k (sname p))) as (e & _ & _ & _ & He4); [|apply base_key_der; exact Hk|apply He4].
        destruct (Hkeys k Hk) as (y & ->). apply (J_der_key simp ord1 items m0 m ps v2f Hd Hi Hp J HJ y p Hk Hpp). }
    exists jac. split; [|split; [exact Hkj|]].
    - intros d Hdd. unfold arr_jac, jacobian_model. rewrite HJ0. cbn [bind]. rewrite Hx. cbn [bind]. rewrite E4, Hx'. cbn [bind].
      rewrite (Hc d Hdd). cbn [bind]. exact Hjac.
    - intros k Hk. destruct (Hall k) as (j & Ej & c & Ec & Hs & Hvv); [apply (m_dict_key ord1 items m0 m ps Hi Hp); exact Hk|]. exists c, j. auto.
  Qed.

  Lemma arr_hessian H solH inp o sol : ps <> [] -> hessian_items simp ord2 m = Ok H -> distinct_names H ->
    (forall k p, In k (dkeys H) -> In p ps -> sname k <> sname p) ->
    solves_for H solH -> value_spec sol inp o -> inputs_ok inp -> exists hess, hess_spec solH inp o hess.
  Proof using Hsimp Ho1 Ho2 Hd Hself Hplain Hpow Hi Hp Hsub Q0 Q2 Qr.
    intros Hne HH Hn Hpn HsJ Hval Hinp. destruct (set_params_fields m0 m ps Hp) as (_ & _ & E3 & E4).
    pose proof HH as HH0. unfold hessian_items in HH. apply bind_Ok in HH as (v2f & Hv & HH). rewrite E4 in HH. apply bind_Ok in HH as (J & HJ & HH).
    pose proof (above_H simp (proj1 Hsimp) ord1 ord2 items m0 m ps v2f Ho1 Ho2 Hd Hself Hkeys Hnoder Hi Hp Hv J H HJ HH) as AH.
    destruct (arr_derived H solH v2f inp o sol AH Hn Hpn HsJ Hval Hinp Hv) as (xm & xm' & oX & Hx & Hx' & Hc & Hrow).
    assert (Hkey : forall k, In k (dkeys (m_dict m)) -> In k (dkeys items)) by (intros k; apply (m_dict_key ord1 items m0 m ps Hi Hp)).
    destruct (dict_rows (fun v => c <- dlook oX v ;; es <- mapM (fun p1 => es1 <- mapM (fun p2 => arr_entry oX (der_of (der_of v (sname p1)) (sname p2)) (shp c)) ps ;; np_stack es1) ps ;; np_stack es)
      (fun k j => exists c, dget o k = Some c /\ shp j = shp c ++ [List.length ps; List.length ps] /\ forall i q1 q2 p1 p2, List.length i = List.length (shp c) ->
        nth_error ps q1 = Some p1 -> nth_error ps q2 = Some p2 ->
        val j (i ++ [q2; q1]) = solH (at_index inp i) (der_of (der_of k (sname p1)) (sname p2))) (dkeys (m_dict m)) m_dict_nodup) as (jac & Hjac & Hkj & Hall).
    { intros k Hk. apply Hkey in Hk. destruct (Hrow k Hk) as (c & Ec & EcX & He). unfold dlook. rewrite EcX. cbn [bind of_opt].
      set (c1 := {| shp := shp c ++ [List.length ps]; val := val c |}).
      destruct (rows_stack (fun p1 => es1 <- mapM (fun p2 => arr_entry oX (der_of (der_of k (sname p1)) (sname p2)) (shp c)) ps ;; np_stack es1) c1 ps
        (fun p1 i => match nth_error ps (last i 0%nat) with Some p2 => solH (at_index inp (removelast i)) (der_of (der_of k (sname p1)) (sname p2)) | None => 0 end) (fun i => exists i' q p2, i = i' ++ [q] /\ List.length i' = List.length (shp c) /\ nth_error ps q = Some p2) Hne) as (j & Hj & Hsj & Hvj).
      - intros i (i' & q & p2 & -> & Hl & _). unfold c1. cbn [shp]. rewrite !app_length, Hl. reflexivity.
      - intros p1 Hp1.
        destruct (rows_stack (fun p2 => arr_entry oX (der_of (der_of k (sname p1)) (sname p2)) (shp c)) c ps (fun p2 i => solH (at_index inp i) (der_of (der_of k (sname p1)) (sname p2))) (fun i => List.length i = List.length (shp c)) Hne (fun i Hl => Hl)) as (j & Hj & Hsj & Hvj).
        + intros p2 Hp2. destruct (He (der_of (der_of k (sname p1)) (sname p2))) as (e & He1 & He2 & He3 & _); [|apply base_key_der2; exact Hk|exists e; auto].
          destruct (Hkeys k Hk) as (y & ->). apply (H_der_key simp ord1 items m0 m ps v2f Hd Hi Hp J H HJ HH y p1 p2 Hk Hp1 Hp2).
        + exists j. split; [exact Hj|]. split; [exact Hsj|]. intros i (i' & q & p2 & -> & Hl & Hq). rewrite last_last, removelast_last, Hq.
          apply Hvj; assumption.
      - exists j. split; [exact Hj|]. exists c. split; [exact Ec|]. split; [rewrite Hsj; unfold c1; cbn [shp]; rewrite <- app_assoc; reflexivity|].
        intros i q1 q2 p1 p2 Hl Hq1 Hq2. replace (i ++ [q2; q1]) with ((i ++ [q2]) ++ [q1]) by (rewrite <- app_assoc; reflexivity).
        rewrite (Hvj (i ++ [q2]) q1 p1); [|exists i, q2, p2; auto|exact Hq1].
        rewrite last_last, removelast_last, Hq2. reflexivity. }
    exists jac. split; [|split; [exact Hkj|]].
    - intros d Hdd. unfold arr_hess, hessian_model. rewrite HH0. cbn [bind]. rewrite Hx. cbn [bind]. rewrite E4, Hx'. cbn [bind].
      rewrite (Hc d Hdd). cbn [bind]. exact Hjac.
    - intros k Hk. destruct (Hall k) as (j & Ej & c & Ec & Hs & Hvv); [apply (m_dict_key ord1 items m0 m ps Hi Hp); exact Hk|]. exists c, j. auto.
  Qed.

  (** shapes depend on the shapes of the inputs only *)
  Lemma nd_eval_shape (v w : sym -> res nd) e : (forall s, In s (occs e) -> forall a b, v s = Ok a -> w s = Ok b -> shp a = shp b) ->
    forall a b, eval NDalg v e = Ok a -> eval NDalg w e = Ok b -> shp a = shp b.
  Proof using.
    assert (H2 : forall f x y x' y' a b, (forall a b, x = Ok a -> x' = Ok b -> shp a = shp b) -> (forall a b, y = Ok a -> y' = Ok b -> shp a = shp b) ->
      nd2 f x y = Ok a -> nd2 f x' y' = Ok b -> shp a = shp b).
    { intros f x y x' y' a b Hx Hy Ha Hb. unfold nd2 in Ha, Hb.
      apply bind_Ok in Ha as (x1 & -> & Ha). apply bind_Ok in Ha as (y1 & -> & Ha).
      apply bind_Ok in Hb as (x2 & -> & Hb). apply bind_Ok in Hb as (y2 & -> & Hb).
      apply nbin_inv in Ha as [Ha _]. apply nbin_inv in Hb as [Hb _]. rewrite (Hx x1 x2 eq_refl eq_refl), (Hy y1 y2 eq_refl eq_refl) in Ha. congruence. }
    induction e as [z|s|x IHx y IHy|x IHx y IHy|x IHx n|x IHx|f x IHx]; simpl; intros H a b Ha Hb.
    - congruence.
    - apply (H s (or_introl eq_refl)); assumption.
    - apply (H2 Rplus _ _ _ _ a b (IHx (fun s Hs => H s (in_or_app _ _ _ (or_introl Hs)))) (IHy (fun s Hs => H s (in_or_app _ _ _ (or_intror Hs)))) Ha Hb).
    - apply (H2 Rmult _ _ _ _ a b (IHx (fun s Hs => H s (in_or_app _ _ _ (or_introl Hs)))) (IHy (fun s Hs => H s (in_or_app _ _ _ (or_intror Hs)))) Ha Hb).
    - revert a b Ha Hb. induction n as [|n IHn]; simpl; intros a b Ha Hb; [congruence|].
      apply (H2 Rmult _ _ _ _ a b (IHx H) IHn Ha Hb).
    - unfold nd1 in *. apply bind_Ok in Ha as (x1 & E1 & Ha). apply bind_Ok in Hb as (x2 & E2 & Hb). injection Ha as <-. injection Hb as <-. exact (IHx H x1 x2 E1 E2).
    - unfold nd1 in *. apply bind_Ok in Ha as (x1 & E1 & Ha). apply bind_Ok in Hb as (x2 & E2 & Hb). injection Ha as <-. injection Hb as <-. exact (IHx H x1 x2 E1 E2).
  Qed.
  Lemma arr_shapes sol inp inp' o o' : value_spec sol inp o -> value_spec sol inp' o' ->
    (forall s, In s (m_indep m ++ m_params m) -> shp (inp s) = shp (inp' s)) ->
    forall k, In k (dkeys items) -> exists c c', dget o k = Some c /\ dget o' k = Some c' /\ shp c = shp c'.
  Proof using Ho1 Hd Hself Hplain Hi Hp Hsub.
    intros (_ & _ & v & [S1 S2] & Hv) (_ & _ & w & [T1 T2] & Hw) Hsh k Hk.
    assert (Hall : forall s, symbol_of items s -> forall a b, v s = Ok a -> w s = Ok b -> shp a = shp b).
    { apply (model_ind ord1 items m0 Ho1 Hd Hself Hi (fun s => forall a b, v s = Ok a -> w s = Ok b -> shp a = shp b)).
      intros s Hs IH a b Ha Hb. destruct (in_dec eq_dec s (dkeys items)) as [Hsk|Hsk].
      - apply in_map_iff in Hsk as ([k' c] & Hq & Hin). simpl in Hq; subst k'. destruct (proj1 (init_model_inv _ _ _ Hi) s c Hin) as (e & ->).
        rewrite (S1 _ _ Hin) in Ha. rewrite (T1 _ _ Hin) in Hb. apply (nd_eval_shape v w e); [|exact Ha|exact Hb].
        intros t Ht. apply IH. exists e. split; [exact Hin|left; exact Ht].
      - rewrite (S2 s Hsk) in Ha. rewrite (T2 s Hsk) in Hb. injection Ha as <-. injection Hb as <-. apply Hsh.
        apply (input_symbol items s (above_items ord1 items m0 Hd Hplain Hi) Hs Hsk). }
    destruct (Hv k Hk) as (a & Ea & Eo & _). destruct (Hw k Hk) as (b & Eb & Eo' & _). exists (atleast_1d a), (atleast_1d b).
    split; [exact Eo|]. split; [exact Eo'|]. pose proof (Hall k (or_introl Hk) a b Ea Eb) as E. unfold atleast_1d. rewrite E. destruct (shp b) eqn:Eq; unfold newaxis; cbn [shp]; congruence.
  Qed.
End Arr.
