(** * ArrCon: what a constraint on a symbolic model computes on arrays. *)
From Coq Require Import Reals Lra Lia.
From Coquelicot Require Import Coquelicot.
From Verif Require Import PyBase PyFacts Signature SignatureFacts Expr Model ModelSpec ModelFacts CallFacts InitFacts ConstraintFacts AsConstraint ExprR Jacobian JacFacts JacAnalysis JacSecond JacLemmas Cast NumPy NumFacts Objective ObjSpec ObjFacts ObjExample ArrModel ArrSpec ArrFacts ArrCall ArrObj ArrMain.
Local Open Scope R_scope.

Lemma symbolic_comps {V} (D : dict sym (comp (V:=V))) : symbolic D -> exists ec, D = comps ec.
Proof.
  induction D as [|[k c] D IH]; intros Hs; [exists []; reflexivity|].
  destruct IH as (ec & ->); [intros k' c' Hin; apply (Hs k' c'); right; exact Hin|].
  destruct (Hs k c (or_introl eq_refl)) as (e & ->). exists ((k, e) :: ec). reflexivity.
Qed.
Lemma in_comps_l {V} (es : dict sym expr) k (c : comp (V:=V)) : In (k, c) (comps es) -> exists e, c = CExpr e /\ In (k, e) es.
Proof. unfold comps. intros H. apply in_map_iff in H as ([k' e] & Hq & Hin). cbn [fst snd] in Hq. injection Hq as -> <-. eauto. Qed.

Lemma init_symbolic {V} ord (items : dict sym (comp (V:=V))) m : init_model ord items = Ok m -> symbolic (m_dict m).
Proof.
  intros Hi. destruct (init_model_inv _ _ _ Hi) as (Hs & H1 & _). rewrite H1. intros k c Hin. apply (Hs k c).
  eapply Permutation.Permutation_in; [apply Permutation.Permutation_sym, sort_items_perm|exact Hin].
Qed.
Lemma constraint_symbolic {V} sub mulm1 w ord r l rh (m cm : model (V:=V)) ty : as_constraint sub mulm1 w ord (CRel r l rh) m = Ok (cm, ty) -> symbolic (m_dict cm).
Proof.
  unfold as_constraint. intros H. apply bind_Ok in H as (i0 & H0 & H). apply bind_Ok in H as ([i1 ty'] & H1 & H).
  assert (Hs0 : symbolic (m_dict i0)).
  { unfold with_dependencies in H0. apply bind_Ok in H0 as (m0 & Hm0 & H0). destruct (existsb _ _); [|inv H0; exact (init_symbolic _ _ _ Hm0)].
    apply bind_Ok in H0 as (syms & _ & H0). exact (init_symbolic _ _ _ H0). }
  assert (Hs1 : symbolic (m_dict i1)).
  { destruct r; try discriminate; try (inv H1; exact Hs0). apply bind_Ok in H1 as (n & Hn & H1). inv H1. unfold neg_model in Hn.
    apply bind_Ok in Hn as (d & _ & Hn). exact (init_symbolic _ _ _ Hn). }
  destruct (Nat.eqb _ _); [|discriminate]. destruct (forallb _ _); [|discriminate]. apply bind_Ok in H as (i2 & H2 & H). inv H.
  unfold set_params in H2. apply bind_Ok in H2 as (sg & _ & H2). inv H2. exact Hs1.
Qed.
(** scipy imposes [>= 0]: [l <= r] is turned into [-(l - r) >= 0] *)
Definition signed (r : rel) (x : R) : R := match r with RLe => x * -1 | _ => x end.

Section Con.
  Context (sub : expr -> expr -> expr) (mulm1 : expr -> expr) (ord1 ord3 : list sym -> list sym).
  Context (es : dict sym expr) (m : amodel) (sol : (sym -> R) -> sym -> R).
  Context (w : sym) (r : rel) (l rh : expr) (cm : amodel) (ty : rel).
  Hypothesis Hm : model_of ord1 es m.
  Hypothesis Hsol : means es sol.
  Hypothesis Har : sympy_arithmetic sub mulm1.
  Hypothesis Ho3 : set_order ord3.
  Hypothesis Hw : constraint_name es l rh w.
  Hypothesis Hpl : proper_powers l /\ proper_powers rh.
  Hypothesis Hc : as_constraint sub mulm1 w ord3 (CRel r l rh) m = Ok (cm, ty).

  Lemma con_built : exists ec cm0 solc, built ord3 ec cm0 cm /\ means ec solc /\ m_dep cm = [w] /\ m_params cm = m_params m /\
    ((r = REq /\ ty = REq) \/ (r = RGe /\ ty = RGe) \/ (r = RLe /\ ty = RGe)) /\
    (forall s, In s (m_indep cm) -> is_par s = false /\ ~ In s (dkeys es) /\ (symbol_of (comps (V:=R) es) s \/ mentions l s \/ mentions rh s)) /\
    (forall inp, solc inp w = signed r (eval Ralg (sol inp) l - eval Ralg (sol inp) rh)) /\
    (forall k e, In (k, e) ec -> In (k, e) es \/ (k = w /\ (e = sub l rh \/ e = mulm1 (sub l rh)))) /\
    (forall inp s, symbol_of (comps (V:=R) ec) s -> s <> w -> solc inp s = sol inp s).
  Proof using Hm Hsol Har Ho3 Hw Hpl Hc.
    destruct Har as (Hse & Hme & Hsm & Hmm & Hsp & Hmp). destruct Hw as ((nw & Ew) & Hws & Hwl & Hwr & Hdn & Hpd).
    destruct Hm as (Ho1 & Hnd & Hdist & Hself & Hplain & Hpow & Hinit).
    set (dR := comps (V:=R) es) in *.
    assert (HdR : is_dict dR) by (unfold is_dict, dR; rewrite dkeys_comps; exact Hnd).
    assert (HiR : init_model ord1 dR = Ok (mcast m)) by (unfold dR; rewrite <- (icast_comps (V:=res nd)); apply init_icast; exact Hinit).
    assert (Hkp : forall k, In k (dkeys dR) -> is_par k = false) by (intros k Hk; destruct (proj1 Hplain k Hk) as (n & ->); reflexivity).
    assert (Hwp : is_par w = false) by (rewrite Ew; reflexivity).
    assert (Hsub : forall s, mentions (sub l rh) s -> mentions (EAdd l rh) s).
    { intros s Hs. destruct (Hsm l rh s Hs) as [[Hi|(y & ps & Hi & E)]|[Hi|(y & ps & Hi & E)]]; [left|right; exists y, ps; split; [|exact E]|left|right; exists y, ps; split; [|exact E]]; cbn [occs]; apply in_or_app; auto. }
    assert (Hdn' : distinct_names ([(w, CExpr (V:=R) (sub l rh))] ++ dR)).
    { assert (Hsy : forall s, symbol_of ([(w, CExpr (V:=R) (sub l rh))] ++ dR) s -> symbol_of ([(w, CExpr (V:=R) (EAdd l rh))] ++ dR) s).
      { intros s [Hk|(k & e & [Hin|Hin] & Hmn)]; [left; exact Hk|right|right].
        - injection Hin as <- <-. exists w, (EAdd l rh). split; [left; reflexivity|apply Hsub; exact Hmn].
        - exists k, e. split; [right; exact Hin|exact Hmn]. }
      intros s t Hs Ht. apply Hdn; apply Hsy; assumption. }
    assert (Hwl' : ~ mentions (sub l rh) w) by (intros H; destruct (Hsm _ _ _ H); contradiction).
    pose proof (as_constraint_icast (W:=R) _ _ _ _ _ _ _ _ _ _ Hc) as HcR.
    rewrite as_constraint_unfold in HcR. apply bind_Ok in HcR as ([inst ty'] & Hin & HcR).
    destruct (constraint_instance Ralg sub mulm1 ord3 ord1 dR (mcast m) w r l rh Ho3 Ho1 HdR HiR Hself Hkp Hdn' Hwp Hws Hwl' Hmm inst ty' Hin)
      as (Hty & Hdep & D & HiD & HdD & HDn & HDself & HwD & HkD & HDs & HmD & Hcl & Hval & HDe).
    rewrite Hdep in HcR. cbn [length Nat.eqb] in HcR. destruct (forallb _ _) eqn:Hfa; [|discriminate].
    apply bind_Ok in HcR as (cm' & Hsp' & Hq). injection Hq as Hq Hty'. subst ty'. subst cm'. rewrite forallb_forall in Hfa.
    assert (HparD : forall k, In k (dkeys D) -> is_par k = false) by (intros k Hk; destruct (HkD k Hk) as [->|Hk']; auto).
    destruct (init_model_inv _ _ _ HiD) as (HsyD & HD1 & _). destruct (symbolic_comps D HsyD) as (ec & ED). subst D.
    rewrite dkeys_comps in *. assert (HdD' : NoDup (dkeys ec)) by (unfold is_dict in HdD; rewrite dkeys_comps in HdD; exact HdD).
    assert (Hincl : forall p, In p (m_params inst) -> In p (m_params m)) by (intros p Hp; apply inb_In, (Hfa p Hp)).
    (* back to arrays *)
    set (cm0 := mcast (W:=res nd) inst).
    assert (Hi0 : init_model ord3 (comps (V:=res nd) ec) = Ok cm0) by (rewrite <- (icast_comps (V:=R)); apply init_icast; exact HiD).
    assert (Ecm : mcast (mcast (W:=R) cm) = cm) by (apply mcast_back; exact (constraint_symbolic _ _ _ _ _ _ _ _ _ _ Hc)).
    assert (Hset : set_params cm0 (m_params m) = Ok cm).
    { rewrite <- Ecm. apply set_params_mcast. exact Hsp'. }
    assert (Ecp : m_params cm = m_params m) by (pose proof Hset as H; unfold set_params in H; apply bind_Ok in H as (sg & _ & H); inv H; reflexivity).
    assert (Ecf : m_dep cm = m_dep inst /\ m_indep cm = m_indep inst) by (pose proof Hset as H; unfold set_params in H; apply bind_Ok in H as (sg & _ & H); inv H; split; reflexivity).
    destruct (solution_map Ralg ord3 (comps ec) inst Ho3 HdD HDself HiD) as (solc & Hsc).
    assert (Hparm : forall p, In p (m_params m) -> symbol_of dR p /\ is_par p = true).
    { intros p Hp. apply (in_params_iff ord1 dR (mcast m) Ho1 HdR HiR) in Hp. tauto. }
    assert (Hsym : forall s, symbol_of (comps (V:=R) ec) s -> s = w \/ symbol_of dR s \/ mentions l s \/ mentions rh s).
    { intros s Hs. destruct (HDs s Hs) as [Hk|(k & e & Hi & Hmn)].
      - cbn in Hk. destruct Hk as [<-|Hk]; [left; reflexivity|right; left; left; exact Hk].
      - cbn in Hi. destruct Hi as [Hi|Hi]; [injection Hi as _ <-; right; right; exact (Hsm _ _ _ Hmn)|right; left; right; exists k, e; auto]. }
    exists ec, cm0, solc. split; [|split; [exact Hsc|]].
    { split; [|rewrite Ecp].
      - split; [exact Ho3|]. split; [exact HdD'|]. split; [exact HDn|]. split; [exact HDself|]. split.
        { split.
          - intros k Hk. rewrite dkeys_comps in Hk. destruct (HkD k Hk) as [->|Hk']; [rewrite Ew; eauto|apply (proj1 Hplain k Hk')].
          - intros k s Hr. destruct (Hsym s (or_intror (ex_intro _ k Hr))) as [->|[[Hk|(k' & Hr')]|Hmn]];
              [rewrite Ew; reflexivity|destruct (proj1 Hplain s Hk) as (n & ->); reflexivity|exact (proj2 Hplain k' s Hr')|exact (Hpd s Hmn)]. }
        split; [|exact Hi0]. intros k e Hi. destruct (HDe k e) as [Hi'|(-> & [->| ->])]; [apply in_comps; exact Hi| | |].
        + apply in_comps in Hi'. exact (Hpow k e Hi').
        + apply Hsp; apply Hpl.
        + apply Hmp, Hsp; apply Hpl.
      - split; [exact Hset|]. split; [apply (lists_nodup ord1 dR (mcast m) Ho1 HdR HiR)|]. split; [exact Hincl|].
        split; [intros p Hp; apply Hparm; exact Hp|]. intros k p Hk Hp He. destruct (Hparm p Hp) as [Hsp1 Hpp].
        assert (k = p) by (apply Hdn'; [apply HDs; left; rewrite dkeys_comps; exact Hk|apply symbol_of_r; exact Hsp1|exact He]). subst p. rewrite (HparD k Hk) in Hpp. discriminate. }
    destruct Ecf as [-> ->]. split; [exact Hdep|]. split; [exact Ecp|]. split; [exact Hty|]. split.
    { intros s Hs. apply (in_indep_iff ord3 (comps ec) inst Ho3 HdD HiD) in Hs as (Hs1 & Hs2 & Hs3). split; [exact Hs2|]. rewrite dkeys_comps in Hs3. split.
      - intros Hk. destruct Hs1 as [Hs1|(k & Hr)]; [rewrite dkeys_comps in Hs1; contradiction|]. apply Hs3. apply (Hcl k s Hr). unfold dR. rewrite dkeys_comps. exact Hk.
      - destruct (Hsym s Hs1) as [->|Hs']; [|exact Hs']. contradiction. }
    (* the values *)
    assert (Huniq : forall inp v1 v2, solution Ralg (comps ec) inp v1 -> solution Ralg (comps ec) inp v2 -> forall s, In s (dkeys ec) -> v1 s = v2 s).
    { intros inp v1 v2 H1 H2 s Hs. destruct (solution_exists Ralg ord3 (comps ec) inst inp Ho3 HdD HDself HiD) as (v & _ & Hu).
      rewrite (Hu v1 H1), (Hu v2 H2) by (rewrite dkeys_comps; exact Hs). reflexivity. }
    split.
    { intros inp. destruct (Hval inp (sol inp)) as (v & Hv & Ev); [exact (fun e env => Hme e env)|exact (Hsol inp)|].
      rewrite (Huniq inp (solc inp) v (Hsc inp) Hv w HwD), Ev. unfold signed, expected_sign. rewrite Hse. destruct r; reflexivity. }
    split.
    { intros k e Hi. destruct (HDe k e) as [Hi'|H]; [apply in_comps; exact Hi|left; apply in_comps in Hi'; exact Hi'|right; exact H]. }
    intros inp s Hs Hne.
    destruct (in_dec eq_dec s (dkeys ec)) as [Hk|Hk].
    2:{ rewrite (proj2 (Hsc inp) s) by (rewrite dkeys_comps; exact Hk). symmetry. apply (proj2 (Hsol inp)). intros Hks. apply Hk.
        destruct Hs as [Hs|(k & Hr)]; [rewrite dkeys_comps in Hs; exact Hs|]. exact (Hcl k s Hr Hks). }
    pose (v' := fun t => if in_dec eq_dec t (dkeys ec) then if eq_dec t w then match dget ec w with Some e => eval Ralg (sol inp) e | None => 0 end else sol inp t else inp t).
    assert (Hv' : solution Ralg (comps ec) inp v').
    { assert (Hagree : forall k e, In (k, CExpr (V:=R) e) (comps ec) -> eval Ralg v' e = eval Ralg (sol inp) e).
      { intros k e Hi. apply eval_ext. intros t Ht. unfold v'. assert (Hr : refers (comps (V:=R) ec) k t) by (exists e; split; [exact Hi|left; exact Ht]).
        destruct (in_dec eq_dec t (dkeys ec)) as [Htk|Htk].
        - destruct (eq_dec t w) as [->|]; [|reflexivity]. exfalso.
          destruct (HDe k e Hi) as [Hi'|(-> & [->| ->])]; [apply Hws; right; exists k, e; split; [exact Hi'|left; exact Ht]|apply Hwl'; left; exact Ht|].
          apply Hwl', Hmm. left; exact Ht.
        - symmetry. apply (proj2 (Hsol inp)). intros Hks. apply Htk. exact (Hcl k t Hr Hks). }
      split.
      - intros k e Hi. rewrite (Hagree k e Hi). unfold v'. apply in_comps in Hi.
        destruct (in_dec eq_dec k (dkeys ec)) as [_|Hn]; [|exfalso; apply Hn; change k with (fst (k, e)); apply in_map; exact Hi].
        destruct (eq_dec k w) as [->|Hkw]; [rewrite (In_dget ec w e HdD' Hi); reflexivity|].
        destruct (HDe k e (proj2 (in_comps ec k e) Hi)) as [Hi'|(E & _)]; [|contradiction]. exact (proj1 (Hsol inp) k e Hi').
      - intros t Ht. unfold v'. rewrite dkeys_comps in Ht. destruct (in_dec eq_dec t (dkeys ec)); [contradiction|reflexivity]. }
    rewrite (Huniq inp (solc inp) v' (Hsc inp) Hv' s Hk). unfold v'. destruct (in_dec eq_dec s (dkeys ec)); [|contradiction]. destruct (eq_dec s w); [contradiction|reflexivity].
  Qed.
End Con.

Lemma bidx_fits s i G : fits s G = true -> In i (indices G) -> In (bidx s i) (indices s).
Proof.
  intros Hf Hi. apply in_indices. apply in_indices in Hi. revert s Hf. induction Hi as [|j g i G Hj Hi IH]; intros [|d s] Hf; try discriminate; try constructor.
  - apply fits_cons in Hf as [Hd _]. destruct (Nat.eqb_spec d 1) as [->|Hn]; [lia|]. destruct Hd as [->|Hd]; [exact Hj|contradiction].
  - apply IH. apply fits_cons in Hf as [_ Hf]. exact Hf.
Qed.

(** a MinimizeModel objective computes the values at the points of the grid, perhaps each of them
    several times or, when they do not depend on the data, once *)
Lemma mm_everywhere simp ord1 ord2 es m0 m : set_order ord2 -> built ord1 es m0 m -> forall sol, means es sol ->
  forall h data G cls, independent_on_grid G m data -> G <> [] -> forall ob xs v, mm_init (om_of cls simp ord2 m) data = Ok ob -> m_dep m = [v] -> full_vector h m xs ->
  exists c, mm_call h (om_of cls simp ord2 m) ob xs [] = Ok c /\
    forall P : R -> Prop, (forall i, In i (indices (shp c)) -> P (val c i)) <-> (forall i, In i (indices G) -> P (predicted sol h (m_params m) data xs v i)).
Proof.
  intros Ho2 Hb sol Hsol h data G cls Hgr HGne ob xs v Hob Hv Hl.
  destruct (mm_spec h (om_of cls simp ord2 m) data ob [] xs (out_at ord2 m h data xs) v Hob (om_interface simp ord1 ord2 es m0 m Hb cls) (om_of_by_keyword _ _ _ _)
    (given simp ord2 m data G cls Hgr) (NoDup_nil _) Hv (value_ok simp ord1 ord2 es m0 m Ho2 Hb sol Hsol h data G cls Hgr xs Hl)) as (H1 & _).
  assert (Hvk : In v (dkeys (comps (V:=res nd) es))) by (apply (dep_key ord1 es m0 m Hb); rewrite Hv; left; reflexivity).
  pose proof (out_spec ord1 ord2 es m0 m Ho2 Hb sol Hsol h data G Hgr xs) as Vs.
  exists (entry (out_at ord2 m h data xs) v). split; [exact H1|]. intros P. split.
  - intros H i Hi. destruct (value_entry ord2 es m sol h data G xs _ v Vs Hvk) as (a & Ea & Hg & He & _).
    rewrite Ea in H. rewrite <- He.
    assert (Hf : In (bidx (shp (atleast_1d a)) i) (indices (shp (atleast_1d a)))).
    { apply (bidx_fits _ _ G); [|exact Hi]. destruct (shapes_grid G a Hg) as [[E _]|[_ E]]; rewrite E; [|apply Hg]. destruct G as [|g G']; [congruence|]. cbn. rewrite orb_true_r. reflexivity. }
    specialize (H _ Hf). rewrite <- elem_val in H by exact Hf. rewrite elem_bidx in H by apply fits_refl. rewrite elem_atleast_1d in H. exact H.
  - intros H i Hi. destruct (value_val ord2 es m sol h data G Hgr xs _ v i Vs Hvk Hi) as [-> Hc].
    rewrite <- (predicted_clip ord1 es m0 m Hb sol Hsol h data G Hgr xs v i Hvk). apply H. exact Hc.
Qed.
