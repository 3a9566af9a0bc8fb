(** What reading the cached properties of a created model returns, after any history of
    reads and deletions of cached properties. *)
From Coq Require Import String List Lia.
From Verif Require Import PyBase PyFacts Toposort Signature Expr Model ModelSpec ModelFacts CallFacts Jacobian Cached CachedSpec CachedFacts Pickle PickleFacts NumPy Objective Minimizer Fit PickleMain.
Import ListNotations.
Local Open Scope string_scope.
Local Open Scope list_scope.

Section More.
  Context {W} (A : alg W) (simp : expr -> expr) (ord : list sym -> list sym).
  Notation KS := (model_class A simp ord).

  Lemma run_with_model (K : klass) conn f d m (k : model (V:=W) -> prog) :
    (forall a, In a ["model_dict"; "independent_vars"; "dependent_vars"; "interdependent_vars"; "_params"; "__signature__"] -> dget K a = None) ->
    describes d m -> plain K (S f) d conn = Ok (MConn (m_conn m)) ->
    run_plain (plain K (S f) d) (with_model conn k) = run_plain (plain K (S f) d) (k m).
  Proof.
    intros HK Hd Hc. unfold with_model, get_dict, get_conn, get_syms, get_sig.
    cbn [run_plain]. rewrite (plain_ordinary K f d "model_dict") by (apply HK; simpl; tauto). rewrite (Hd "model_dict" (MDict (m_dict m)) eq_refl). cbn [of_opt run_plain].
    rewrite Hc. cbn [run_plain].
    rewrite (plain_ordinary K f d "independent_vars") by (apply HK; simpl; tauto). rewrite (Hd "independent_vars" (MSyms (m_indep m)) eq_refl). cbn [of_opt run_plain].
    rewrite (plain_ordinary K f d "dependent_vars") by (apply HK; simpl; tauto). rewrite (Hd "dependent_vars" (MSyms (m_dep m)) eq_refl). cbn [of_opt run_plain].
    rewrite (plain_ordinary K f d "interdependent_vars") by (apply HK; simpl; tauto). rewrite (Hd "interdependent_vars" (MSyms (m_inter m)) eq_refl). cbn [of_opt run_plain].
    rewrite (plain_ordinary K f d "_params") by (apply HK; simpl; tauto). rewrite (Hd "_params" (MSyms (m_params m)) eq_refl). cbn [of_opt run_plain].
    rewrite (plain_ordinary K f d "__signature__") by (apply HK; simpl; tauto). rewrite (Hd "__signature__" (MSig (m_sig m)) eq_refl). cbn [of_opt run_plain].
    destruct m; reflexivity.
  Qed.

  Lemma sigmas_look (l l0 : list sym) : NoDup l0 -> (forall v, In v l -> In v l0) ->
    mapM (dlook (sigmas_of l0)) l = Ok (map (fun v => SVar ("sigma_" ++ sname v)) l).
  Proof.
    intros Hn. induction l as [|v l IH]; intros H; [reflexivity|]. cbn [mapM map].
    assert (E : dlook (sigmas_of l0) v = Ok (SVar ("sigma_" ++ sname v))).
    { unfold dlook, of_opt. rewrite (In_dget (sigmas_of l0) v (SVar ("sigma_" ++ sname v))); [reflexivity| |].
      - unfold dkeys, sigmas_of. rewrite map_map. cbn. rewrite map_id. exact Hn.
      - unfold sigmas_of. apply in_map_iff. exists v. split; [reflexivity|apply H; left; reflexivity]. }
    rewrite E. cbn [bind]. rewrite IH; [reflexivity|intros w Hw; apply H; right; exact Hw].
  Qed.

  Lemma property_values m : NoDup (m_dep m) -> connectivity ord (m_dict m) = Ok (m_conn m) ->
    forall fuel h, 3 <= fuel -> Forall (cache_op KS) h ->
      let s := history KS fuel h (symbolic_object m) in
      let read a := fst (getattr KS fuel a s) in
      read "vars" = Ok (MSyms (m_indep m ++ m_dep m ++ map (fun v => SVar ("sigma_" ++ sname v)) (m_dep m))) /\
      read "connectivity_mapping" = Ok (MConn (m_conn m)) /\
      read "numerical_components" = Ok (MComps (map (numerical_component A m) (m_dict m))) /\
      read "jacobian_model" = (j <- jacobian_model simp ord m ;; Ok (MModel j)) /\
      read "hessian_model" = (j <- hessian_model simp ord m ;; Ok (MModel j)).
  Proof.
    intros Hnd Hcon fuel h Hf Hh s read.
    assert (Hpl : forall d f, describes d m -> 2 <= f -> plain KS f d "connectivity_mapping" = Ok (MConn (m_conn m))).
    { intros d f Hd Hf2. destruct f as [|[|f]]; [lia|lia|].
      rewrite (plain_property KS (S f) d "connectivity_mapping" (conn_body (W:=W) ord) eq_refl). unfold conn_body, get_dict. cbn [run_plain].
      rewrite (plain_ordinary KS f d "model_dict") by reflexivity. rewrite (Hd "model_dict" (MDict (m_dict m)) eq_refl). cbn [of_opt run_plain].
      rewrite Hcon. reflexivity. }
    assert (Hnm : forall a, In a (map fst (plain_attrs m)) -> ordinary KS a).
    { simpl. intros a H. repeat (destruct H as [<-|H]; [split; reflexivity|]). contradiction. }
    assert (Hd0 : describes (attrs (symbolic_object m)) m).
    { intros a v Hv. unfold symbolic_object. simpl attrs. change (dget (plain_attrs m ++ [("_cached_connectivity_mapping", MConn (m_conn m))]) a = Some v).
      rewrite dget_app, Hv. reflexivity. }
    assert (Hco : coherent KS rank (symbolic_object m)).
    { intros a body v Hk Hp Hv f Hfr.
      assert (Ea : a = "connectivity_mapping").
      { apply dget_In in Hv. simpl in Hv. destruct Hv as [H|[H|[H|[H|[H|[H|[H|[H|[]]]]]]]]]; apply (f_equal fst) in H; cbn [fst] in H; try (apply (f_equal (fun s => String.prefix base_str s)) in H; rewrite cache_attr_prefix in H; discriminate H).
        exact (eq_sym (cache_attr_inj "connectivity_mapping" a H)). }
      subst a. simpl in Hv. injection Hv as <-. apply Hpl; [exact Hd0|]. vm_compute in Hfr. lia. }
    destruct (history_coherent KS rank (ranked_sym A simp ord) (clean_sym A simp ord) fuel h) with (s := symbolic_object m) as [C S];
      [intros a; pose proof (rank_small a); lia|exact Hh|exact Hco|]. fold s in C, S.
    pose proof (describes_same KS (symbolic_object m) s m S Hnm Hd0) as Hds.
    assert (Hread : forall a, String.prefix base_str a = false -> read a = plain KS fuel (attrs s) a).
    { intros a Hp. apply (getattr_coherent KS rank (ranked_sym A simp ord) (clean_sym A simp ord)); auto. pose proof (rank_small a); lia. }
    rewrite !Hread by reflexivity. destruct fuel as [|[|[|f]]]; [lia|lia|lia|]. clear Hread read Hf.
    split; [|split; [apply Hpl; [exact Hds|lia]|]].
    - rewrite (plain_property KS (Datatypes.S (Datatypes.S f)) (attrs s) "vars" vars_body eq_refl). unfold vars_body, get_syms, get_sigmas. cbn [run_plain].
      rewrite (plain_ordinary KS (Datatypes.S f) (attrs s) "independent_vars" eq_refl), (Hds "independent_vars" (MSyms (m_indep m)) eq_refl). cbn [of_opt run_plain].
      rewrite (plain_ordinary KS (Datatypes.S f) (attrs s) "dependent_vars" eq_refl), (Hds "dependent_vars" (MSyms (m_dep m)) eq_refl). cbn [of_opt run_plain].
      rewrite (plain_ordinary KS (Datatypes.S f) (attrs s) "sigmas" eq_refl), (Hds "sigmas" (MSigmas (sigmas_of (m_dep m))) eq_refl). cbn [of_opt run_plain].
      rewrite (sigmas_look (m_dep m) (m_dep m) Hnd (fun v H => H)). reflexivity.
    - assert (Hw : forall a k, dget KS a = Some (with_model "connectivity_mapping" k) ->
        plain KS (Datatypes.S (Datatypes.S (Datatypes.S f))) (attrs s) a = run_plain (plain KS (Datatypes.S (Datatypes.S f)) (attrs s)) (k m)).
      { intros a k Hk. rewrite (plain_property KS (Datatypes.S (Datatypes.S f)) (attrs s) a _ Hk).
        apply run_with_model; [apply sym_names|exact Hds|apply Hpl; [exact Hds|lia]]. }
      split; [|split]; (erewrite Hw; [|reflexivity]); reflexivity.
  Qed.

  Lemma model_properties items m : set_order ord -> is_dict items -> init_model ord items = Ok m ->
    forall fuel h, 3 <= fuel -> Forall (cache_op KS) h ->
      let s := history KS fuel h (symbolic_object m) in
      let read a := fst (getattr KS fuel a s) in
      read "vars" = Ok (MSyms (m_indep m ++ m_dep m ++ map (fun v => SVar ("sigma_" ++ sname v)) (m_dep m))) /\
      read "connectivity_mapping" = Ok (MConn (m_conn m)) /\
      read "numerical_components" = Ok (MComps (map (numerical_component A m) (m_dict m))) /\
      read "jacobian_model" = (j <- jacobian_model simp ord m ;; Ok (MModel j)) /\
      read "hessian_model" = (j <- hessian_model simp ord m ;; Ok (MModel j)).
  Proof.
    intros Ho Hd Hi. destruct (init_model_facts _ _ _ Hi) as [_ Hc].
    apply property_values; [apply (lists_nodup ord items m Ho Hd Hi)|exact Hc].
  Qed.
End More.
