(** * TwinMain: a numerical model whose callables compute the expressions of a symbolic model is that model. *)
From Coq Require Import Reals Lra Lia.
From Verif Require Import PyBase PyFacts Toposort ToposortFacts LayerFacts Signature SignatureFacts Expr Model ModelSpec ModelFacts CallFacts InitFacts ConstraintFacts AsConstraint ModelMisc PropLemmas NumModel NumSpec NumMain NumDepthSpec NumDepth TwinSpec NumPy NumFacts Objective ObjSpec Cast ArrModel ArrSpec ArrFacts ArrGen Minimizer MinSpec Fit FitSpec EndSpec GenSpec GlobSpec GlobMain NumFitSpec NumFit.
From Verif Require ArrObj Prop_Model.
Local Open Scope R_scope.
Local Open Scope list_scope.

Section Twin.
  Context {V : Type} (A : alg V) (ord1 ord1' : list sym -> list sym) (es : dict sym expr) (items : dict sym (comp (V:=V))) (user : dict sym (list sym)) (m m' : Model.model (V:=V)).
  Hypothesis Ho1 : set_order ord1.
  Hypothesis Ho1' : set_order ord1'.
  Hypothesis Hd : NoDup (dkeys es).
  Hypothesis Hself : no_self_reference (comps (V:=V) es).
  Hypothesis Hi : init_model ord1 (comps es) = Ok m.
  Hypothesis Hp : proper_numerical items user.
  Hypothesis Hi' : init_numerical ord1' items user = Ok m'.
  Hypothesis Htwin : callables_for A es items user.

  Lemma twin_depends k s : depends items user k s <-> refers (comps (V:=V) es) k s.
  Proof using Htwin.
    destruct Htwin as (_ & _ & _ & H). rewrite H. unfold refers. split; intros (e & Hin & Hs); exists e; (split; [|exact Hs]); apply (ArrObj.in_comps (V:=V)); exact Hin.
  Qed.
  Lemma twin_keys k : In k (dkeys items) <-> In k (dkeys (comps (V:=V) es)).
  Proof using Htwin. rewrite ArrObj.dkeys_comps. apply (proj1 Htwin). Qed.
  Lemma twin_dict : is_dict (comps (V:=V) es).
  Proof using Hd. unfold is_dict. rewrite ArrObj.dkeys_comps. exact Hd. Qed.
  Lemma twin_symbol s : nsymbol items user s <-> symbol_of (comps (V:=V) es) s.
  Proof using Htwin.
    unfold nsymbol, symbol_of. rewrite twin_keys. split; (intros [H|(k & H)]; [left; exact H|right; exists k; apply twin_depends; exact H]).
  Qed.
  Lemma twin_down s n : depends_down items user s n <-> refers_down (comps (V:=V) es) s n.
  Proof using Htwin Hself.
    split; induction 1 as [s|s t n H]; try constructor.
    - apply (down_S _ s t n); [apply twin_depends; exact H| |assumption]. intros ->. exact (Hself s (proj1 (twin_depends s s) H)).
    - apply (ndown_S _ _ s t n); [apply twin_depends; exact H|assumption].
  Qed.
  Lemma twin_dep s : In s (m_dep m') <-> In s (m_dep m).
  Proof using Ho1 Ho1' Hd Hself Hi Hp Hi' Htwin.
    rewrite (proj1 (num_classified ord1' items user m' Ho1' Hp Hi') s), (proj1 (classified_by_depth ord1 _ m Ho1 twin_dict Hi) s).
    split; intros (n & H0 & H1 & H2); exists n; (split; [exact H0|split; [apply twin_down; exact H1|]]); intros t k Ht; apply (H2 t k); apply twin_down; exact Ht.
  Qed.
  Lemma twin_inter s : In s (m_inter m') <-> In s (m_inter m).
  Proof using Ho1 Ho1' Hd Hself Hi Hp Hi' Htwin.
    rewrite (proj2 (num_classified ord1' items user m' Ho1' Hp Hi') s), (proj2 (classified_by_depth ord1 _ m Ho1 twin_dict Hi) s), twin_dep.
    split; intros ((t & H) & Hn); (split; [|exact Hn]); exists t.
    - apply twin_depends in H. split; [exact H|]. intros ->. exact (Hself s H).
    - apply twin_depends. tauto.
  Qed.
  Lemma twin_indep s : In s (m_indep m') <-> In s (m_indep m).
  Proof using Ho1 Ho1' Hd Hi Hp Hi' Htwin.
    rewrite (nm_indep ord1' items user m' Ho1' Hp Hi' s), (in_indep_iff ord1 _ m Ho1 twin_dict Hi s), twin_symbol, twin_keys. tauto.
  Qed.
  Lemma twin_params s : In s (m_params m') <-> In s (m_params m).
  Proof using Ho1 Ho1' Hd Hself Hi Hp Hi' Htwin.
    rewrite (nm_params ord1' items user m' Ho1' Hp Hi' s), (in_params_iff ord1 _ m Ho1 twin_dict Hi s), twin_symbol. split; [|tauto].
    intros [H1 H2]. split; [exact H1|split; [exact H2|]]. intros t Ht. exfalso. apply twin_depends in Ht. pose proof (nm_depends_key items user Hp s t Ht) as Hk.
    rewrite (pn_vars _ _ Hp s Hk) in H2. discriminate.
  Qed.
  Lemma twin_injective (l : list sym) : (forall s, In s l -> nsymbol items user s) -> key_inj sname l.
  Proof using Hp. intros H a b Ha Hb. apply (pn_names _ _ Hp); apply H; assumption. Qed.
  Lemma twin_lists : m_indep m' = m_indep m /\ m_params m' = m_params m /\ m_dep m' = m_dep m /\ m_inter m' = m_inter m.
  Proof using Ho1 Ho1' Hd Hself Hi Hp Hi' Htwin.
    destruct (Prop_Model.C03_classification V ord1 _ m Ho1 twin_dict Hi) as (_ & _ & C3 & C4 & S1 & S2 & S3 & S4 & N1 & N2 & N3 & N4 & _).
    destruct (nm_layers ord1' items user m' Ho1' Hi') as (l0 & mid & top & Ht & _ & _ & _ & Hn & A1 & A2).
    destruct (nm_layer_lists ord1' items user m' Ho1' Hi') as (l0' & mid' & top' & Ht' & E3 & E4 & A3 & A4).
    rewrite map_app in Hn. apply NoDup_app_split in Hn as (Hn1 & Hn2 & _). apply NoDup_map_inv in Hn1, Hn2.
    assert (Hnd : NoDup (m_dep m') /\ NoDup (m_inter m')).
    { destruct (init_numerical_inv _ _ _ _ Hi') as (conn & Hc & _).
      destruct (classify_inv _ _ _ _ Hc) as (l1 & mid1 & top1 & Ht1 & H1 & H2 & _ & _ & E5 & E6 & _). rewrite <- H2 in Ht1.
      pose proof (toposort_ok _ _ (nm_conn_nodup ord1' items user m' Hp Hi') Ht1) as (Hn & _). cbn [concat] in Hn. rewrite concat_app in Hn. cbn [concat] in Hn. rewrite app_nil_r in Hn.
      apply NoDup_app_split in Hn as (_ & Hn & _). apply NoDup_app_split in Hn as (Hm & Hn & _). split.
      - rewrite E5. apply NoDup_sort_by. eapply Permutation_NoDup; [symmetry; apply Ho1'|exact Hn].
      - rewrite E6. apply NoDup_sort_by. eapply Permutation_NoDup; [|exact Hm]. clear -Ho1'. induction mid1 as [|L l IH]; [constructor|]. cbn [concat flat_map]. apply Permutation_app; [symmetry; apply Ho1'|exact IH]. }
    destruct Hnd as [Hn3 Hn4].
    assert (Hu : forall l l' : list sym, (forall s, In s l' -> nsymbol items user s) -> NoDup l' -> NoDup l -> (forall s, In s l' <-> In s l) -> alphabetical sname l' -> alphabetical sname l -> l' = l).
    { intros l l' Hsym N N' E Sa Sb. apply (alphabetical_unique sname); auto; [apply twin_injective; exact Hsym|]. apply NoDup_Permutation; auto. }
    assert (Hks : forall s, In s (dkeys (comps (V:=V) es)) -> nsymbol items user s) by (intros s Hs; apply twin_symbol; left; exact Hs).
    split; [|split; [|split]]; apply Hu; auto.
    - intros s Hs. apply (nm_indep ord1' items user m' Ho1' Hp Hi') in Hs. tauto.
    - exact twin_indep.
    - intros s Hs. apply (nm_params ord1' items user m' Ho1' Hp Hi') in Hs. tauto.
    - exact twin_params.
    - intros s Hs. apply Hks, C3, twin_dep, Hs.
    - exact twin_dep.
    - intros s Hs. apply Hks, C4, twin_inter, Hs.
    - exact twin_inter.
  Qed.
  Lemma twin_signature : m_sig m' = m_sig m.
  Proof using Ho1 Ho1' Hd Hself Hi Hp Hi' Htwin.
    destruct (nm_layers ord1' items user m' Ho1' Hi') as (l0 & mid & top & _ & _ & _ & E & _). rewrite E, (init_signature ord1 _ m Hi).
    destruct twin_lists as (-> & -> & _). reflexivity.
  Qed.
  Lemma twin_solution inp v : solution A (comps es) inp v -> nsolution A items user inp v.
  Proof using Hd Htwin.
    intros [H1 H2]. destruct Htwin as (Hk & He & Hf & Hdep). split; [|split].
    - intros k e Hin. apply H1. apply (ArrObj.in_comps (V:=V)). exact (He k e Hin).
    - intros k i f kw Hin Hn Hkw. assert (Hke : In k (dkeys es)) by (apply Hk; change k with (fst (k, CFun i f)); apply in_map; exact Hin).
      apply in_map_iff in Hke as ([k' e] & E & Hine). cbn [fst] in E. subst k'.
      rewrite (H1 k e) by (apply (ArrObj.in_comps (V:=V)); exact Hine). apply (Hf k i f e Hin Hine); [exact Hn|]. intros n a. rewrite Hkw. split.
      + intros (s & Hs & E1 & E2). exists s. split; [|auto]. apply Hdep in Hs as (e' & Hine' & Hs).
        apply (In_dget _ _ _ Hd) in Hine, Hine'. congruence.
      + intros (s & Hs & E1 & E2). exists s. split; [|auto]. apply Hdep. exists e. auto.
    - intros s Hs. apply H2. intros Hc. apply Hs. apply twin_keys. exact Hc.
  Qed.
End Twin.

(** ** What the objectives get. *)
Section Predict.
  Context (simp : expr -> expr) (ord1 ord1' ord2 : list sym -> list sym) (es : dict sym expr) (items : dict sym (comp (V:=res nd))) (user : dict sym (list sym)) (m m' : amodel) (sol : (sym -> R) -> sym -> R).
  Hypothesis Hm : model_of ord1 es m.
  Hypothesis Hsol : means es sol.
  Hypothesis Hnum : numerical_model_of ord1' ord2 items user m'.
  Hypothesis Htwin : callables_for NDalg es items user.
  Context (Y : sym -> option nd) (sh : sym -> list nat).
  Hypothesis Hgr : on_grids es m Y sh.
  Hypothesis HY : forall v, In v (m_indep m) -> Y v <> None.

  Lemma twin_self : no_self_reference (comps (V:=res nd) es).
  Proof using Hm. destruct Hm as (_ & _ & _ & H & _). intros k Hk. apply (H k). exact (refers_R es k k Hk). Qed.
  Lemma twin_same : m_indep m' = m_indep m /\ m_params m' = m_params m /\ m_dep m' = m_dep m /\ m_inter m' = m_inter m /\ m_sig m' = m_sig m.
  Proof using Hm Hnum Htwin.
    pose proof twin_self as Hs. destruct Hm as (Ho1 & Hd & _ & _ & _ & _ & Hi). destruct Hnum as (Ho1' & Ho2 & Hp & Hi').
    destruct (twin_lists NDalg ord1 ord1' es items user m m' Ho1 Ho1' Hd Hs Hi Hp Hi' Htwin) as (E1 & E2 & E3 & E4).
    pose proof (twin_signature NDalg ord1 ord1' es items user m m' Ho1 Ho1' Hd Hs Hi Hp Hi' Htwin). auto.
  Qed.
  Lemma twin_predicts theta : predicts (om_of KCallable simp ord2 m') Y sh theta (fun v i => sol (at_data Y theta i) v).
  Proof using Hm Hsol Hnum Htwin Hgr HY.
    destruct twin_same as (E1 & E2 & E3 & _). pose proof Hnum as (Ho1' & Ho2 & Hp & Hi').
    destruct (gvalue ord1 ord2 es m sol Ho2 Hm Hsol Y sh Hgr HY theta) as (o & Hv).
    pose proof Hv as (_ & _ & w & Hw & Hall). set (out := fun s => getnd (w s)).
    assert (Hout : forall s, w s = Ok (out s)).
    { intros s. destruct (in_dec (fun a b => eq_dec a b) s (dkeys (comps (V:=res nd) es))) as [Hk|Hk].
      - destruct (Hall s Hk) as (a & Ea & _). unfold out. rewrite Ea. reflexivity.
      - unfold out. rewrite (proj2 Hw s Hk). reflexivity. }
    assert (Hwo : solution NDalg (comps es) (given_values Y theta) (fun s => Ok (out s))).
    { split.
      - intros k e Hin. rewrite <- Hout, (proj1 Hw k e Hin). apply eval_ext. intros s _. apply Hout.
      - intros s Hs. rewrite <- Hout. exact (proj2 Hw s Hs). }
    assert (Hent : forall v, In v (m_dep m) -> entry o v = atleast_1d (out v)).
    { intros v Hvd. destruct (Hall v (dep_in ord1 es m Hm v Hvd)) as (a & Ea & Eo & _). unfold entry, out. rewrite Eo, Ea. reflexivity. }
    assert (Hca : components_are items user m' Y sh theta out).
    { split; [apply (twin_solution NDalg es items user (proj1 (proj2 Hm)) Htwin); exact Hwo|].
      intros v Hvd. rewrite E3 in Hvd. rewrite <- (Hent v Hvd). exact (proj1 (gentry ord1 ord2 es m sol Hm Hsol Y sh Hgr HY theta o v Hv Hvd)). }
    assert (HY' : forall v, In v (m_indep m') -> Y v <> None) by (rewrite E1; exact HY).
    intros d Hind. destruct (num_predicts simp ord1' ord2 items user m' Ho1' Ho2 Hp Hi' Y sh theta out HY' Hca d Hind) as (od & Hc & Hl & Hval).
    exists od. split; [exact Hc|]. split; [exact Hl|]. intros v Hvd. destruct (Hval v Hvd) as (S1 & S2). split; [exact S1|]. intros i Hii. rewrite (S2 i Hii).
    cbn [om_of om_dep] in Hvd. rewrite E3 in Hvd. unfold at_points. rewrite <- (Hent v Hvd).
    destruct (gentry ord1 ord2 es m sol Hm Hsol Y sh Hgr HY theta o v Hv Hvd) as (F1 & _ & F3).
    rewrite <- (elem_val (entry o v)) by (rewrite F1; exact Hii). apply F3.
  Qed.
End Predict.
