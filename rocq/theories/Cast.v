(** * Cast: a symbolic model means the same over every number system.

    The reals are used for derivatives, arrays for evaluation; a model built from the
    same expressions has the same symbols, parameters and derivatives in both. *)
From Verif Require Import PyBase PyFacts Toposort Signature Expr Model ModelSpec ModelFacts Jacobian.

(** the components of a model dict of expressions *)
Definition comps {V} (es : dict sym expr) : dict sym (comp (V:=V)) := map (fun ke => (fst ke, CExpr (snd ke))) es.

Section Cast.
  Context {V W : Type}.
  Definition ccast (c : comp (V:=V)) : comp (V:=W) :=
    match c with CExpr e => CExpr e | CFun i _ => CFun i (fun _ => Raise TypeError) end.
  Definition icast (d : dict sym (comp (V:=V))) : dict sym (comp (V:=W)) := map (fun kc => (fst kc, ccast (snd kc))) d.
  Definition mcast (m : model (V:=V)) : model (V:=W) :=
    {| m_dict := icast (m_dict m); m_conn := m_conn m; m_indep := m_indep m; m_dep := m_dep m;
       m_inter := m_inter m; m_params := m_params m; m_sig := m_sig m |}.

  Lemma dkeys_icast d : dkeys (icast d) = dkeys d.
  Proof. unfold dkeys, icast. rewrite map_map. reflexivity. Qed.
  Lemma icast_comps es : icast (comps es) = comps es.
  Proof. unfold icast, comps. rewrite map_map. reflexivity. Qed.
  Lemma in_icast d k e : In (k, CExpr e) (icast d) <-> In (k, CExpr e) d.
  Proof.
    unfold icast. rewrite in_map_iff. split.
    - intros ([k' c] & Hq & Hin). simpl in Hq. destruct c as [e'|]; inv Hq. exact Hin.
    - intros Hin. exists (k, CExpr e). auto.
  Qed.
  Lemma dmem_icast d k : dmem (icast d) k = dmem d k.
  Proof.
    destruct (dmem d k) eqn:Hm.
    - apply dmem_keys in Hm. apply dmem_keys. rewrite dkeys_icast. exact Hm.
    - apply dmem_false in Hm. apply dmem_false. rewrite dkeys_icast. exact Hm.
  Qed.
  Lemma insert_map {A B} (f : A -> B) (la : A -> A -> bool) (lb : B -> B -> bool) :
    (forall x y, lb (f x) (f y) = la x y) -> forall x l, insert lb (f x) (map f l) = map f (insert la x l).
  Proof.
    intros H x l. induction l as [|y l IH]; simpl; [reflexivity|]. rewrite H. destruct (la x y); simpl; [reflexivity|]. rewrite IH. reflexivity.
  Qed.
  Lemma isort_map {A B} (f : A -> B) (la : A -> A -> bool) (lb : B -> B -> bool) :
    (forall x y, lb (f x) (f y) = la x y) -> forall l, isort lb (map f l) = map f (isort la l).
  Proof. intros H l. induction l as [|x l IH]; simpl; [reflexivity|]. rewrite IH. apply insert_map; exact H. Qed.
  Lemma sort_items_icast d : sort_items (icast d) = icast (sort_items d).
  Proof. unfold sort_items, sort_by, icast. apply isort_map. reflexivity. Qed.

  Lemma connectivity_icast ord d : connectivity ord (icast d) = connectivity ord d.
  Proof.
    unfold connectivity. induction d as [|[k c] d IH]; simpl; [reflexivity|]. rewrite IH. destruct c; reflexivity.
  Qed.
  Lemma classify_icast ord d conn m : classify ord d conn = Ok m -> classify ord (icast d) conn = Ok (mcast m).
  Proof.
    unfold classify. intros H. apply bind_Ok in H as (layers & -> & H). cbn [bind].
    destruct layers as [|l0 rest]; [discriminate|]. destruct (rev rest) as [|top mid]; [discriminate|].
    assert (Hf : forall l, filter (fun s => negb (is_par s) && negb (dmem (icast d) s)) l = filter (fun s => negb (is_par s) && negb (dmem d s)) l).
    { intros l. apply filter_ext. intros s. rewrite dmem_icast. reflexivity. }
    rewrite Hf. apply bind_Ok in H as (sg & -> & H). cbn [bind]. destruct (_ || _); [discriminate|]. inv H. reflexivity.
  Qed.
  Lemma init_icast ord d m : init_model ord d = Ok m -> init_model ord (icast d) = Ok (mcast m).
  Proof.
    unfold init_model. intros H. apply bind_Ok in H as (conn & Hc & H). rewrite sort_items_icast, connectivity_icast, Hc. cbn [bind].
    apply classify_icast; exact H.
  Qed.
  Lemma set_params_mcast m ps m' : set_params m ps = Ok m' -> set_params (mcast m) ps = Ok (mcast m').
  Proof. unfold set_params. simpl. intros H. apply bind_Ok in H as (sg & -> & H). cbn [bind]. inv H. reflexivity. Qed.
  Lemma vaf_mcast ord m : vars_as_functions ord (mcast m) = vars_as_functions ord m.
  Proof. reflexivity. Qed.

  Lemma refers_icast d k s : refers (icast d) k s <-> refers d k s.
  Proof. unfold refers. split; intros (e & Hin & Hm); exists e; (split; [apply in_icast; exact Hin|exact Hm]). Qed.
  Lemma symbol_of_icast d s : symbol_of (icast d) s <-> symbol_of d s.
  Proof.
    unfold symbol_of. rewrite dkeys_icast. split; (intros [H|(k & H)]; [left; exact H|right; exists k; apply refers_icast; exact H]).
  Qed.
  Lemma distinct_icast d : distinct_names d -> distinct_names (icast d).
  Proof. intros H s t Hs Ht. apply H; apply symbol_of_icast; assumption. Qed.
  Lemma noself_icast d : no_self_reference d -> no_self_reference (icast d).
  Proof. intros H k Hr. apply (H k), refers_icast, Hr. Qed.
  Lemma plain_icast d : plain_model d -> plain_model (icast d).
  Proof.
    intros [H1 H2]. split.
    - intros k. rewrite dkeys_icast. apply H1.
    - intros k s Hr. apply (H2 k s), refers_icast, Hr.
  Qed.
  Lemma is_dict_icast d : is_dict d -> is_dict (icast d).
  Proof. unfold is_dict. rewrite dkeys_icast. auto. Qed.

  (** *** Jacobian *)
  Lemma dset_icast d k c : dset (icast d) k (ccast c) = icast (dset d k c).
  Proof. induction d as [|[k' c'] d IH]; simpl; [reflexivity|]. destruct (eq_dec k k'); simpl; [reflexivity|]. rewrite IH. reflexivity. Qed.
  Lemma dupdate_icast e : forall d, dupdate (icast d) (icast e) = icast (dupdate d e).
  Proof.
    unfold dupdate. induction e as [|[k c] e IH]; intros d; simpl; [reflexivity|]. rewrite dset_icast. apply IH.
  Qed.
  Lemma jac_rows_icast simp v2f ps d rows : jac_rows simp v2f ps d = Ok rows -> jac_rows simp v2f ps (icast d) = Ok (icast rows).
  Proof.
    unfold jac_rows. intros H. apply bind_Ok in H as (rs & Hrs & Hq). injection Hq as <-.
    assert (Hm : mapM (fun kc : sym * comp (V:=W) => mapM (fun p => match snd kc with
        | CExpr e => e' <- diff (diff_sym v2f p) e ;; Ok (der_of (fst kc) (sname p), CExpr (V:=W) (simp e'))
        | CFun _ _ => Raise AttributeError end) ps) (icast d) = Ok (map icast rs)).
    { revert rs Hrs. induction d as [|[k c] d IH]; simpl; intros rs Hrs; [inv Hrs; reflexivity|].
      apply bind_Ok in Hrs as (r & Hr & Hrs). apply bind_Ok in Hrs as (rs' & Hrs' & Hq). injection Hq as <-.
      rewrite (IH rs' Hrs'). clear IH Hrs'.
      match goal with |- context [mapM ?f ps] => assert (Hmm : mapM f ps = Ok (icast r)) end.
      { revert r Hr. induction ps as [|p ps' IHp]; simpl; intros r Hr; [inv Hr; reflexivity|].
        apply bind_Ok in Hr as (x & Hx & Hr). apply bind_Ok in Hr as (r' & Hr' & Hq). injection Hq as <-.
        rewrite (IHp r' Hr'). destruct c as [e|]; simpl in *; [|discriminate].
        apply bind_Ok in Hx as (e' & -> & Hx). cbn [bind]. injection Hx as <-. reflexivity. }
      rewrite Hmm. reflexivity. }
    rewrite Hm. cbn [bind]. f_equal. unfold icast. rewrite concat_map. reflexivity.
  Qed.
  Lemma jac_items_icast simp v2f ps d J : jac_items simp v2f ps d = Ok J -> jac_items simp v2f ps (icast d) = Ok (icast J).
  Proof.
    unfold jac_items. intros H. apply bind_Ok in H as (rows & Hr & Hq). injection Hq as <-.
    rewrite (jac_rows_icast _ _ _ _ _ Hr). cbn [bind]. f_equal.
    unfold dict_of. change (@nil (sym * comp (V:=W))) with (icast []). rewrite dupdate_icast, dupdate_icast. reflexivity.
  Qed.
  Lemma jacobian_items_icast simp ord m J : jacobian_items simp ord m = Ok J -> jacobian_items simp ord (mcast m) = Ok (icast J).
  Proof.
    unfold jacobian_items. rewrite vaf_mcast. intros H. apply bind_Ok in H as (v2f & -> & H). cbn [bind]. simpl.
    apply jac_items_icast; exact H.
  Qed.
  Lemma hessian_items_icast simp ord m H : hessian_items simp ord m = Ok H -> hessian_items simp ord (mcast m) = Ok (icast H).
  Proof.
    unfold hessian_items. rewrite vaf_mcast. intros Hh. apply bind_Ok in Hh as (v2f & -> & Hh). cbn [bind].
    apply bind_Ok in Hh as (J & HJ & Hh). simpl. rewrite (jac_items_icast _ _ _ _ _ HJ). cbn [bind]. apply jac_items_icast; exact Hh.
  Qed.
  (** *** constraints *)
  Lemma dget_icast d k : dget (icast d) k = option_map ccast (dget d k).
  Proof. induction d as [|[k' c'] d IH]; simpl; [reflexivity|]. destruct (eq_dec k k'); [reflexivity|exact IH]. Qed.
  Lemma add_until_icast dm v syms : forall d, add_until (mcast dm) v syms (icast d) = icast (add_until dm v syms d).
  Proof.
    induction syms as [|s syms IH]; intros d; cbn [add_until]; [reflexivity|].
    cbn [mcast m_dict]. rewrite dget_icast, dmem_icast.
    assert (E : match option_map ccast (dget (m_dict dm) s) with Some c => if dmem d s then icast d else dset (icast d) s c | None => icast d end =
                icast match dget (m_dict dm) s with Some c => if dmem d s then d else dset d s c | None => d end).
    { destruct (dget (m_dict dm) s); cbn [option_map]; [|reflexivity]. destruct (dmem d s); [reflexivity|apply dset_icast]. }
    rewrite E. destruct (eqb s v); [reflexivity|apply IH].
  Qed.
  Lemma with_dependencies_icast ord d dm m : with_dependencies ord d dm = Ok m -> with_dependencies ord (icast d) (mcast dm) = Ok (mcast m).
  Proof.
    unfold with_dependencies. intros H. apply bind_Ok in H as (m0 & Hm0 & H). rewrite (init_icast _ _ _ Hm0). cbn [bind].
    assert (Hex : forall l, existsb (fun v => dmem (m_dict (mcast dm)) v) l = existsb (fun v => dmem (m_dict dm) v) l).
    { intros l. cbn [mcast m_dict]. induction l as [|v l IH]; cbn [existsb]; [reflexivity|]. rewrite dmem_icast, IH. reflexivity. }
    change (m_indep (mcast m0)) with (m_indep m0). rewrite Hex. destruct (existsb _ _); [|inv H; reflexivity].
    change (ordered_symbols ord (mcast dm)) with (ordered_symbols ord dm). apply bind_Ok in H as (syms & -> & H). cbn [bind].
    change (m_dict (mcast m0)) with (icast (m_dict m0)).
    assert (E : forall l d0, fold_left (fun d1 v => if dmem (m_dict (mcast dm)) v then add_until (mcast dm) v syms d1 else d1) l (icast d0) =
      icast (fold_left (fun d1 v => if dmem (m_dict dm) v then add_until dm v syms d1 else d1) l d0)).
    { induction l as [|v l IH]; intros d0; cbn [fold_left]; [reflexivity|]. cbn [mcast m_dict]. rewrite dmem_icast.
      destruct (dmem (m_dict dm) v); [rewrite <- IH; f_equal; apply (add_until_icast dm)|apply IH]. }
    rewrite E. apply init_icast; exact H.
  Qed.
  Lemma neg_model_icast mulm1 ord m n : neg_model mulm1 ord m = Ok n -> neg_model mulm1 ord (mcast m) = Ok (mcast n).
  Proof.
    unfold neg_model, neg_dict. intros H. apply bind_Ok in H as (d & Hd & H). cbn [mcast m_dict m_dep].
    assert (E : forall l d0 d1, foldM (fun d2 v => c <- dlook d2 v ;; c' <- neg_comp mulm1 c ;; Ok (dset d2 v c')) d0 l = Ok d1 ->
      foldM (fun d2 v => c <- dlook d2 v ;; c' <- neg_comp mulm1 c ;; Ok (dset d2 v c')) (icast d0) l = Ok (icast d1)).
    { induction l as [|v l IH]; cbn [foldM]; intros d0 d1 Hf; [inv Hf; reflexivity|].
      apply bind_Ok in Hf as (d2 & H2 & Hf). apply bind_Ok in H2 as (c & Hc & H2). apply bind_Ok in H2 as (c' & Hc' & H2). inv H2.
      unfold dlook in Hc |- *. rewrite dget_icast. destruct (dget d0 v) as [c0|]; [|discriminate]. inv Hc. cbn [option_map of_opt bind].
      destruct c as [e|]; [|discriminate]. cbn [ccast neg_comp bind] in *. inv Hc'. cbn [bind]. rewrite <- (IH _ _ Hf). f_equal.
      exact (dset_icast d0 v (CExpr (mulm1 e))). }
    rewrite (E _ _ _ Hd). cbn [bind]. apply init_icast; exact H.
  Qed.
  Lemma as_constraint_icast sub mulm1 w ord r l hh m cm ty : as_constraint sub mulm1 w ord (CRel r l hh) m = Ok (cm, ty) ->
    as_constraint sub mulm1 w ord (CRel r l hh) (mcast m) = Ok (mcast cm, ty).
  Proof.
    unfold as_constraint. intros H. apply bind_Ok in H as (i0 & H0 & H). apply with_dependencies_icast in H0. cbn [icast map fst snd ccast] in H0. rewrite H0. cbn [bind].
    apply bind_Ok in H as ([i1 ty'] & H1 & H).
    assert (E : match Some r with Some REq => Ok (mcast i0, REq) | Some RGe => Ok (mcast i0, RGe) | Some RLe => n <- neg_model mulm1 ord (mcast i0) ;; Ok (n, RGe) | _ => Raise ModelError end = Ok (mcast i1, ty')).
    { destruct r; try discriminate; try (inv H1; reflexivity). apply bind_Ok in H1 as (n & Hn & H1). inv H1. rewrite (neg_model_icast _ _ _ _ Hn). reflexivity. }
    rewrite E. cbn [bind mcast m_dep m_params]. destruct (Nat.eqb _ _); [|discriminate]. destruct (forallb _ _); [|discriminate].
    apply bind_Ok in H as (i2 & H2 & H). inv H. rewrite (set_params_mcast _ _ _ H2). reflexivity.
  Qed.
End Cast.

Lemma mcast_back {V W} (m : model (V:=V)) : symbolic (m_dict m) -> mcast (mcast (W:=W) m) = m.
Proof.
  intros Hs. destruct m as [d c i dp it ps sg]. unfold mcast. simpl in *. f_equal. unfold icast. rewrite map_map.
  rewrite <- (map_id d) at 2. apply map_ext_in. intros [k x] Hin. simpl. destruct (Hs k x Hin) as (e & ->). reflexivity.
Qed.
