(** * AsConstraint: what a constraint model computes. *)
From Verif Require Import PyBase PyFacts Toposort ToposortFacts LayerFacts Signature SignatureFacts Expr Model ModelSpec ModelFacts CallFacts InitFacts ConstraintFacts.
From Coq Require Import Relations.

Section AsConstraint.
  Context {V : Type} (A : alg V).
  Notation model := (model (V:=V)).
  Notation comp := (comp (V:=V)).

  (** a call of a model whose parameter list was replaced by a larger one *)
  Lemma call_set_params ord1 ord2 (items : dict sym comp) (m m' : model) ps inp val args kw :
    set_order ord1 -> set_order ord2 -> is_dict items -> distinct_names items -> no_self_reference items ->
    (forall k, In k (dkeys items) -> is_par k = false) ->
    init_model ord1 items = Ok m -> set_params m ps = Ok m' ->
    (forall p, In p (m_params m) -> In p ps) ->
    (forall k p, In k (dkeys items) -> In p ps -> sname k <> sname p) ->
    solution A items inp val ->
    supplies (named inp (m_indep m ++ ps)) args kw ->
    call A ord2 m' args kw = Ok {| mo_vars := sort_by sname (dkeys items); mo_out := map val (sort_by sname (dkeys items)) |}.
  Proof.
    intros Ho1 Ho2 Hd Hn Hself Hpar Hi Hsp Hincl Hkp Hsol Hsup.
    destruct (init_model_inv _ _ _ Hi) as (Hs & H1 & H2 & Hc).
    unfold set_params in Hsp. apply bind_Ok in Hsp as (sig & Hsig & Hq). inv Hq.
    apply make_signature_ok in Hsig as [Hsig Hndn].
    destruct (classify_inv _ _ _ _ Hc) as (l0 & mid & top & Ht & _). rewrite <- H2 in Ht.
    rewrite <- dkeys_sort_items, <- H1. set (m' := {| m_dict := m_dict m; m_conn := m_conn m |}).
    destruct (toposort_ordered ord2 m' _ Ht) as (syms & Hsyms).
    apply (call_gen A ord2 m' val inp (m_indep m ++ ps) args kw syms); auto.
    - exact (well_formed_sym ord1 items m' Ho1 Hd Hn Hself H1 H2).
    - exact (solves_sym A ord1 items m' inp val Ho1 Hd Hn Hself Hs H1 H2 Hsol).
    - intros s Hs1 Hk. simpl in Hs1, Hk. rewrite (keys_items ord1 items m Hi) in Hk. apply (node_items ord1 items m Ho1 Hi) in Hs1.
      apply in_or_app. destruct (is_par s) eqn:Hp.
      + right. apply Hincl. apply (in_params_iff ord1 items m Ho1 Hd Hi). repeat split; auto.
        intros t (e & Hin & _). exfalso. apply Hk. eapply in_key; exact Hin.
      + left. apply (in_indep_iff ord1 items m Ho1 Hd Hi). auto.
    - intros s Hk Hin. simpl in Hk. rewrite (keys_items ord1 items m Hi) in Hk. apply in_map_iff in Hin as (t & He & Ht').
      apply in_app_iff in Ht' as [Ht'|Ht'].
      + apply (in_indep_iff ord1 items m Ho1 Hd Hi) in Ht'.
        assert (t = s) by (apply Hn; [tauto|left; exact Hk|exact He]). subst t. tauto.
      + apply (Hkp s t Hk Ht'). symmetry; exact He.
    - destruct Hsol as [_ Hsol2]. intros s Hs'. apply Hsol2.
      apply in_app_iff in Hs' as [Hs'|Hs'].
      + apply (in_indep_iff ord1 items m Ho1 Hd Hi) in Hs'. tauto.
      + intros Hk. exact (Hkp s s Hk Hs' eq_refl).
  Qed.

  Section Constraint.
    Context (sub : expr -> expr -> expr) (mulm1 : expr -> expr).
    Context (ord ordd : list sym -> list sym) (ditems : dict sym comp) (dm : model).
    Context (w : sym) (r : rel) (l h : expr).
    Let items : dict sym comp := [(w, CExpr (sub l h))].
    Context (Ho : set_order ord) (Hod : set_order ordd).
    Context (Hdd : is_dict ditems) (Hdm : init_model ordd ditems = Ok dm).
    Context (Hselfd : no_self_reference ditems).
    Context (Hkpd : forall k, In k (dkeys ditems) -> is_par k = false).
    Context (Hn : distinct_names (items ++ ditems)).
    Context (Hwp : is_par w = false) (Hwd : ~ symbol_of ditems w) (Hwl : ~ mentions (sub l h) w).
    Context (Hmm : forall e s, mentions (mulm1 e) s <-> mentions e s).

    Lemma items_dict : is_dict items.
    Proof using. unfold is_dict, items; simpl. constructor; [simpl; tauto|constructor]. Qed.
    Lemma items_in k c : In (k, c) items -> k = w /\ c = CExpr (sub l h).
    Proof using. intros [Hin|[]]. split; congruence. Qed.
    Lemma items_self : no_self_reference items.
    Proof using Hwl. intros k (e & Hin & Hm). apply items_in in Hin as [-> Hin]. injection Hin as ->. contradiction. Qed.
    Lemma items_par k : In k (dkeys items) -> is_par k = false.
    Proof using Hwp. intros [<-|[]]; exact Hwp. Qed.
    Lemma items_sep k s : refers ditems k s -> ~ In s (dkeys items).
    Proof using Hwd. intros Hr [<-|[]]. apply Hwd. right. exists k; exact Hr. Qed.

    (** The combined model, possibly negated, and the value of its component [w]. *)
    Definition expected_sign : rel -> V -> V := fun r v => match r with RLe => a_mul A v (a_num A (-1)) | _ => v end.

    Lemma constraint_instance inst ty :
      (m' <- with_dependencies ord items dm ;;
       match r with
       | REq => Ok (m', REq)
       | RGe => Ok (m', RGe)
       | RLe => n <- neg_model mulm1 ord m' ;; Ok (n, RGe)
       | _ => Raise ModelError
       end) = Ok (inst, ty) ->
      ((r = REq /\ ty = REq) \/ (r = RGe /\ ty = RGe) \/ (r = RLe /\ ty = RGe)) /\
      m_dep inst = [w] /\
      exists D, init_model ord D = Ok inst /\ is_dict D /\ distinct_names D /\ no_self_reference D /\
        In w (dkeys D) /\ (forall k, In k (dkeys D) -> k = w \/ In k (dkeys ditems)) /\
        (forall s, symbol_of D s -> symbol_of (items ++ ditems) s) /\
        (forall s, mentions (sub l h) s -> symbol_of D s) /\
        (forall k s, refers D k s -> In s (dkeys ditems) -> In s (dkeys D)) /\
        (forall inp valD, (forall e env, eval A env (mulm1 e) = a_mul A (eval A env e) (a_num A (-1))) ->
           solution A ditems inp valD ->
           exists val, solution A D inp val /\ val w = expected_sign r (eval A valD (sub l h))) /\
        (forall k e, In (k, CExpr e) D -> In (k, CExpr e) ditems \/ (k = w /\ (e = sub l h \/ e = mulm1 (sub l h)))).
    Proof using A Ho Hod Hdd Hdm Hselfd Hkpd Hn Hwp Hwd Hwl Hmm.
      intros Hb. apply bind_Ok in Hb as (m' & Hw & Hb).
      destruct (with_dependencies_inv ord ordd items ditems dm Ho Hod items_dict Hdd Hdm Hn Hkpd m' Hw)
        as (m0 & D & Hm0 & Hm' & HdD & HD1 & HD2 & HD3 & HD4).
      assert (Htop : m_dep m' = [w]).
      { apply (wd_top ord ordd items ditems dm Ho Hod items_dict Hdd Hdm Hn Hkpd w); auto.
        - intros s Hs ->. contradiction.
        - apply items_par. }
      assert (HDn : distinct_names D) by (apply (D_distinct items ditems Hn D HD2)).
      assert (HDself : no_self_reference D) by (apply (D_no_self items ditems D HD2 items_self Hselfd)).
      assert (HwD : In w (dkeys D)) by (apply (D_keys_l items D HD1); left; reflexivity).
      assert (HkD : forall k, In k (dkeys D) -> k = w \/ In k (dkeys ditems)).
      { intros k Hk. destruct (D_keys items ditems D HD2 k Hk) as [[<-|[]]|[Hk' _]]; auto. }
      assert (HmD : forall s, mentions (sub l h) s -> symbol_of D s).
      { intros s Hs. right. exists w, (sub l h). split; [apply HD1; left; reflexivity|exact Hs]. }
      assert (HDe : forall k e, In (k, CExpr e) D -> In (k, CExpr e) ditems \/ (k = w /\ e = sub l h)).
      { intros k e Hin. destruct (HD2 k _ Hin) as [Hi|[Hi _]]; [|left; exact Hi]. apply items_in in Hi as [-> Hi]. injection Hi as ->. right; auto. }
      assert (Hsol : forall inp valD, solution A ditems inp valD -> exists val, solution A D inp val /\ val w = eval A valD (sub l h)).
      { intros inp valD HsD.
        set (val := fun s => if eq_dec s w then eval A valD (sub l h) else valD s).
        assert (Hs0 : solution A items valD val).
        { split.
          - intros k e Hin. apply items_in in Hin as [-> Hin]. injection Hin as ->. unfold val at 1. destruct (eq_dec w w); [|congruence].
            apply eval_ext. intros s Hs. unfold val. destruct (eq_dec s w) as [->|]; [|reflexivity].
            exfalso. apply Hwl. left; exact Hs.
          - intros s Hs. unfold val. destruct (eq_dec s w) as [->|]; [|reflexivity]. exfalso. apply Hs. left; reflexivity. }
        pose proof (D_solution A items ditems D HD1 HD2 HD3 inp valD val items_sep HsD Hs0) as Hsol.
        eexists; split; [exact Hsol|]. cbv beta. replace (inb w (dkeys items)) with true by (symmetry; apply inb_In; left; reflexivity).
        unfold val. destruct (eq_dec w w); [reflexivity|congruence]. }
      destruct r eqn:Hr; try discriminate.
      - inv Hb. split; [left; auto|]. split; [exact Htop|]. exists D. repeat split; auto.
        + apply (D_symbols items ditems D HD2).
        + intros inp valD _ HsD. apply Hsol; exact HsD.
        + intros k e Hin. destruct (HDe k e Hin) as [Hi|[-> ->]]; [left; exact Hi|right; auto].
      - inv Hb. split; [right; left; auto|]. split; [exact Htop|]. exists D. repeat split; auto.
        + apply (D_symbols items ditems D HD2).
        + intros inp valD _ HsD. apply Hsol; exact HsD.
        + intros k e Hin. destruct (HDe k e Hin) as [Hi|[-> ->]]; [left; exact Hi|right; auto].
      - apply bind_Ok in Hb as (n & Hneg & Hq). inv Hq.
        destruct (neg_model_ok mulm1 ord ord D m' Ho Ho HdD HDn Hmm Hm') as (n' & Hn' & Hni & _ & _ & _ & _ & Hndep & _ & _).
        rewrite Hneg in Hn'. inv Hn'. split; [right; right; auto|]. split; [rewrite Hndep; exact Htop|].
        set (D' := map (fun kc => (fst kc, neg_at mulm1 (m_dep m') (fst kc) (snd kc))) D) in *.
        assert (Hkeys : dkeys D' = dkeys D) by (unfold D', dkeys; rewrite map_map; reflexivity).
        assert (Hsymb : symbolic D) by (destruct (init_model_inv _ _ _ Hm') as (Hs & _); exact Hs).
        assert (Href : forall k s, refers D' k s <-> refers D k s).
        { intros k s. split.
          - intros (e & Hin & Hm). apply in_map_iff in Hin as ([k0 c0] & He & Hin). simpl in He. inv He.
            destruct (Hsymb k c0 Hin) as (e0 & ->). unfold neg_at in H1. destruct (inb k (m_dep m')); inv H1.
            + exists e0; split; [exact Hin|]. apply Hmm; exact Hm.
            + exists e; auto.
          - intros (e & Hin & Hm). unfold neg_at in D'. destruct (inb k (m_dep m')) eqn:Hik.
            + exists (mulm1 e). split; [|apply Hmm; exact Hm]. apply in_map_iff. exists (k, CExpr e). simpl. rewrite Hik. auto.
            + exists e. split; [|exact Hm]. apply in_map_iff. exists (k, CExpr e). simpl. rewrite Hik. auto. }
        assert (Hsyms : forall s, symbol_of D' s <-> symbol_of D s).
        { intros s. unfold symbol_of. rewrite Hkeys. split; (intros [Hk|(k & Hk)]; [left; exact Hk|right; exists k; apply Href; exact Hk]). }
        exists D'. split; [exact Hni|]. split; [unfold is_dict; rewrite Hkeys; exact HdD|].
        split; [intros s t Hs Ht; apply HDn; apply Hsyms; assumption|].
        split; [intros k Hk; apply Href in Hk; exact (HDself k Hk)|].
        rewrite Hkeys. split; [exact HwD|]. split; [exact HkD|].
        split; [intros s Hs; apply Hsyms in Hs; apply (D_symbols items ditems D HD2); exact Hs|].
        split; [intros s Hs; apply Hsyms; auto|].
        split; [intros k s Hk; apply Href in Hk; apply (HD3 k s Hk)|].
        split; cycle 1.
        { intros k e Hin. apply in_map_iff in Hin as ([k0 c0] & He & Hin). cbn [fst snd] in He. destruct (Hsymb k0 c0 Hin) as (e0 & ->). unfold neg_at in He. rewrite Htop in He.
          destruct (inb k0 [w]) eqn:E; injection He as <- <-.
          - apply inb_In in E. destruct E as [<-|[]]. destruct (HDe w e0 Hin) as [Hi|[_ ->]]; [exfalso; apply Hwd; left; eapply in_key; exact Hi|right; auto].
          - destruct (HDe k0 e0 Hin) as [Hi|[-> ->]]; [left; exact Hi|right; auto]. }
        intros inp valD Hmul HsD. destruct (Hsol inp valD HsD) as (val & Hv & Hvw).
        exists (fun s => if inb s (m_dep m') then a_mul A (val s) (a_num A (-1)) else val s). split.
        + apply (neg_solution A mulm1 ord D m' inp val); auto.
        + rewrite Htop. replace (inb w [w]) with true by (symmetry; apply inb_In; left; reflexivity). rewrite Hvw. reflexivity.
    Qed.

    Lemma as_constraint_unfold : as_constraint sub mulm1 w ord (CRel r l h) dm =
      ('(inst, ty) <- (m' <- with_dependencies ord items dm ;;
       match r with
       | REq => Ok (m', REq)
       | RGe => Ok (m', RGe)
       | RLe => n <- neg_model mulm1 ord m' ;; Ok (n, RGe)
       | _ => Raise ModelError
       end) ;;
      if Nat.eqb (List.length (m_dep inst)) 1 then
      if forallb (fun p => inb p (m_params dm)) (m_params inst)
      then inst' <- set_params inst (m_params dm) ;; Ok (inst', ty)
      else Raise ModelError
      else Raise ModelError).
    Proof using.
      unfold as_constraint. fold items. destruct (with_dependencies ord items dm) as [m'|]; [|reflexivity]. cbn [bind].
      destruct r; reflexivity.
    Qed.

    (** C10, C11 *)
    Lemma as_constraint_ok cm ty :
      as_constraint sub mulm1 w ord (CRel r l h) dm = Ok (cm, ty) ->
      ((r = REq /\ ty = REq) \/ (r = RGe /\ ty = RGe) \/ (r = RLe /\ ty = RGe)) /\
      m_dep cm = [w] /\ m_params cm = m_params dm /\
      (forall s, In s (m_indep cm) -> is_par s = false /\ ~ In s (dkeys ditems) /\ symbol_of (items ++ ditems) s) /\
      (forall p, mentions (sub l h) p -> is_par p = true -> In p (m_params dm)) /\
      (forall ord2 inp valD args kw, set_order ord2 ->
         (forall e env, eval A env (mulm1 e) = a_mul A (eval A env e) (a_num A (-1))) ->
         solution A ditems inp valD ->
         supplies (named inp (m_indep cm ++ m_params dm)) args kw ->
         exists o, call A ord2 cm args kw = Ok o /\ dget (mo_dict o) w = Some (expected_sign r (eval A valD (sub l h)))).
    Proof using A Ho Hod Hdd Hdm Hselfd Hkpd Hn Hwp Hwd Hwl Hmm.
      rewrite as_constraint_unfold. intros Hc. apply bind_Ok in Hc as ([inst ty'] & Hin & Hc).
      destruct (constraint_instance inst ty' Hin) as (Hty & Hdep & D & Hi & HdD & HDn & HDself & HwD & HkD & HDs & HmD & Hcl & Hsol & _).
      rewrite Hdep in Hc. cbn [length Nat.eqb] in Hc.
      destruct (forallb _ _) eqn:Hfa; [|discriminate]. apply bind_Ok in Hc as (cm' & Hsp & Hq). inv Hq.
      rewrite forallb_forall in Hfa.
      assert (Hincl : forall p, In p (m_params inst) -> In p (m_params dm)).
      { intros p Hp. apply inb_In, Hfa; exact Hp. }
      assert (HparD : forall k, In k (dkeys D) -> is_par k = false).
      { intros k Hk. destruct (HkD k Hk) as [->|Hk']; auto. }
      pose proof Hsp as Hsp'. unfold set_params in Hsp'. apply bind_Ok in Hsp' as (sig & Hsig & Hq). inv Hq. cbn [m_dep m_params m_indep].
      split; [exact Hty|]. split; [exact Hdep|]. split; [reflexivity|]. split; [|split].
      - intros s Hs. apply (in_indep_iff ord D inst Ho HdD Hi) in Hs as (Hs1 & Hs2 & Hs3). split; [exact Hs2|]. split; [|auto].
        intros Hk. destruct Hs1 as [Hs1|(k & Hr)]; [contradiction|]. exact (Hs3 (Hcl k s Hr Hk)).
      - intros p Hp Hpp. apply Hincl. apply (in_params_iff ord D inst Ho HdD Hi). split; [auto|]. split; [exact Hpp|].
        intros t (e & Hin' & _). apply in_key in Hin'. rewrite (HparD p Hin') in Hpp. discriminate.
      - intros ord2 inp valD args kw Ho2 Hmul HsD Hsup.
        destruct (Hsol inp valD Hmul HsD) as (val & Hv & Hvw).
        eexists. split.
        + apply (call_set_params ord ord2 D inst _ (m_params dm) inp val args kw Ho Ho2 HdD HDn HDself HparD Hi Hsp); auto.
          intros k p Hk Hp He. apply (in_params_iff ordd ditems dm Hod Hdd Hdm) in Hp as (Hp1 & Hp2 & _).
          assert (k = p) by (apply Hn; [apply HDs; left; exact Hk|apply symbol_of_r; exact Hp1|exact He]). subst p.
          rewrite (HparD k Hk) in Hp2. discriminate.
        + unfold mo_dict. cbn [mo_vars mo_out].
          assert (Hnd : NoDup (sort_by sname (dkeys D))) by (apply NoDup_sort_by; exact HdD).
          assert (Hw : In w (sort_by sname (dkeys D))) by (apply in_sort_by; exact HwD).
          apply In_nth_error in Hw as (i & Hw).
          rewrite dict_of_nodup.
          * rewrite (dget_combine_nth (sort_by sname (dkeys D)) (map val (sort_by sname (dkeys D))) i w (val w)); auto.
            -- rewrite Hvw. reflexivity.
            -- rewrite nth_error_map, Hw. reflexivity.
          * fold (dkeys (combine (sort_by sname (dkeys D)) (map val (sort_by sname (dkeys D))))). rewrite dkeys_combine by (rewrite map_length; reflexivity). exact Hnd.
    Qed.

    (** which constraints are accepted *)
    Lemma as_constraint_accepts : (exists s, mentions (sub l h) s) -> (r = REq \/ r = RGe \/ r = RLe) ->
      (forall p, mentions (sub l h) p -> is_par p = true -> In p (m_params dm)) ->
      exists cm ty, as_constraint sub mulm1 w ord (CRel r l h) dm = Ok (cm, ty).
    Proof using A Ho Hod Hdd Hdm Hselfd Hkpd Hn Hwp Hwd Hwl Hmm.
      intros (s0 & Hs0) Hr Hps. rewrite as_constraint_unfold.
      assert (Hi0 : exists m0, init_model ord items = Ok m0).
      { apply init_model_succeeds; auto using items_dict, items_par.
        - intros k c Hin. apply items_in in Hin as [_ ->]. eauto.
        - apply (distinct_l items ditems Hn).
        - intros s Hc. assert (Hp : forall x y, clos_trans sym (refers_other items) x y -> x = w /\ y <> w).
          { intros x y Hp. induction Hp as [x y [(e & Hin & Hm) Hne]|x y z _ [-> Hy] _ [-> Hz]]; [|congruence].
            apply items_in in Hin as [-> Hin]. split; [reflexivity|exact Hne]. }
          destruct (Hp s s Hc); contradiction.
        - exists w, s0. split; [exists (sub l h); split; [left; reflexivity|exact Hs0]|]. intros ->; contradiction. }
      destruct Hi0 as (m0 & Hm0).
      destruct (with_dependencies_succeeds ord ordd items ditems dm Ho Hod items_dict Hdd Hdm Hn Hkpd m0 Hm0 items_par items_sep) as (m' & Hw).
      assert (Hex : exists inst ty, (m' <- with_dependencies ord items dm ;;
       match r with
       | REq => Ok (m', REq)
       | RGe => Ok (m', RGe)
       | RLe => n <- neg_model mulm1 ord m' ;; Ok (n, RGe)
       | _ => Raise ModelError
       end) = Ok (inst, ty)).
      { rewrite Hw. cbn [bind]. destruct Hr as [->|[->| ->]]; [eauto|eauto|].
        destruct (with_dependencies_inv ord ordd items ditems dm Ho Hod items_dict Hdd Hdm Hn Hkpd m' Hw)
          as (m0' & D & _ & Hm' & HdD & HD1 & HD2 & HD3 & HD4).
        destruct (neg_model_ok mulm1 ord ord D m' Ho Ho HdD (D_distinct items ditems Hn D HD2) Hmm Hm') as (n' & Hn' & _).
        rewrite Hn'. cbn [bind]. eauto. }
      destruct Hex as (inst & ty & Hinst). rewrite Hinst. cbn [bind].
      destruct (constraint_instance inst ty Hinst) as (Hty & Hdep & D & Hi & HdD & HDn & HDself & HwD & HkD & HDs & HmD & Hcl & Hsol & _).
      rewrite Hdep. cbn [length Nat.eqb].
      assert (Hincl : forall p, In p (m_params inst) -> In p (m_params dm)).
      { intros p Hp. apply (in_params_iff ord D inst Ho HdD Hi) in Hp as (Hp1 & Hp2 & _).
        apply HDs in Hp1. destruct Hp1 as [Hk|(k & e & Hin & Hm)].
        - exfalso. unfold dkeys in Hk. rewrite map_app in Hk. apply in_app_iff in Hk as [[<-|[]]|Hk]; [simpl in Hp2; congruence|].
          rewrite (Hkpd p Hk) in Hp2. discriminate.
        - apply in_app_iff in Hin as [Hin|Hin]; [apply items_in in Hin as [_ Hin]; injection Hin as ->; auto|].
          apply (in_params_iff ordd ditems dm Hod Hdd Hdm). split; [right; exists k, e; auto|]. split; [exact Hp2|].
          intros t (e' & Hin' & _). apply in_key in Hin'. rewrite (Hkpd p Hin') in Hp2. discriminate. }
      replace (forallb _ _) with true.
      2:{ symmetry. apply forallb_forall. intros p Hp. apply inb_In; auto. }
      unfold set_params. rewrite make_signature_intro; [cbn [bind]; eauto|].
      apply NoDup_map_names.
      - apply NoDup_app_disj.
        + apply (lists_nodup ord D inst Ho HdD Hi).
        + apply (lists_nodup ordd ditems dm Hod Hdd Hdm).
        + intros x Hx Hy. apply (in_indep_iff ord D inst Ho HdD Hi) in Hx as (_ & Hx & _).
          apply (in_params_iff ordd ditems dm Hod Hdd Hdm) in Hy as (_ & Hy & _). congruence.
      - assert (Hsy : forall x, In x (m_indep inst ++ m_params dm) -> symbol_of (items ++ ditems) x).
        { intros x Hx. apply in_app_iff in Hx as [Hx|Hx].
          - apply (in_indep_iff ord D inst Ho HdD Hi) in Hx as (Hx & _). auto.
          - apply (in_params_iff ordd ditems dm Hod Hdd Hdm) in Hx as (Hx & _). apply symbol_of_r; exact Hx. }
        intros x y Hx Hy. apply Hn; auto.
    Qed.

    Lemma as_constraint_rejects : (exists s, mentions (sub l h) s) ->
      (r = REq \/ r = RGe \/ r = RLe) ->
      (exists p, mentions (sub l h) p /\ is_par p = true /\ ~ In p (m_params dm)) ->
      as_constraint sub mulm1 w ord (CRel r l h) dm = Raise ModelError.
    Proof using A Ho Hod Hdd Hdm Hselfd Hkpd Hn Hwp Hwd Hwl Hmm.
      intros (s0 & Hs0) Hr (p & Hp1 & Hp2 & Hp3). rewrite as_constraint_unfold.
      assert (Hi0 : exists m0, init_model ord items = Ok m0).
      { apply init_model_succeeds; auto using items_dict, items_par.
        - intros k c Hin. apply items_in in Hin as [_ ->]. eauto.
        - apply (distinct_l items ditems Hn).
        - intros s Hc. assert (Hp : forall x y, clos_trans sym (refers_other items) x y -> x = w /\ y <> w).
          { intros x y Hp. induction Hp as [x y [(e & Hin & Hm) Hne]|x y z _ [-> Hy] _ [-> Hz]]; [|congruence].
            apply items_in in Hin as [-> Hin]. split; [reflexivity|exact Hne]. }
          destruct (Hp s s Hc); contradiction.
        - exists w, s0. split; [exists (sub l h); split; [left; reflexivity|exact Hs0]|]. intros ->; contradiction. }
      destruct Hi0 as (m0 & Hm0).
      destruct (with_dependencies_succeeds ord ordd items ditems dm Ho Hod items_dict Hdd Hdm Hn Hkpd m0 Hm0 items_par items_sep) as (m' & Hw).
      assert (Hex : exists inst ty, (m' <- with_dependencies ord items dm ;;
       match r with
       | REq => Ok (m', REq)
       | RGe => Ok (m', RGe)
       | RLe => n <- neg_model mulm1 ord m' ;; Ok (n, RGe)
       | _ => Raise ModelError
       end) = Ok (inst, ty)).
      { rewrite Hw. cbn [bind]. destruct Hr as [->|[->| ->]]; [eauto|eauto|].
        destruct (with_dependencies_inv ord ordd items ditems dm Ho Hod items_dict Hdd Hdm Hn Hkpd m' Hw)
          as (m0' & D & _ & Hm' & HdD & HD1 & HD2 & HD3 & HD4).
        destruct (neg_model_ok mulm1 ord ord D m' Ho Ho HdD (D_distinct items ditems Hn D HD2) Hmm Hm') as (n' & Hn' & _).
        rewrite Hn'. cbn [bind]. eauto. }
      destruct Hex as (inst & ty & Hinst). rewrite Hinst. cbn [bind].
      destruct (constraint_instance inst ty Hinst) as (Hty & Hdep & D & Hi & HdD & HDn & HDself & HwD & HkD & HDs & HmD & Hcl & Hsol & _).
      rewrite Hdep. cbn [length Nat.eqb].
      replace (forallb _ _) with false; [reflexivity|]. symmetry.
      destruct (forallb _ _) eqn:Hfa; [|reflexivity]. exfalso. rewrite forallb_forall in Hfa. apply Hp3. apply inb_In, Hfa.
      apply (in_params_iff ord D inst Ho HdD Hi). split; [auto|]. split; [exact Hp2|].
      intros t (e & Hin' & _). apply in_key in Hin'. destruct (HkD p Hin') as [->|Hk']; [congruence|].
      rewrite (Hkpd p Hk') in Hp2. discriminate.
    Qed.

    Lemma as_constraint_strict : (exists s, mentions (sub l h) s) -> r = RGt \/ r = RLt \/ r = RNe ->
      as_constraint sub mulm1 w ord (CRel r l h) dm = Raise ModelError.
    Proof using A Ho Hod Hdd Hdm Hselfd Hkpd Hn Hwp Hwd Hwl Hmm.
      intros (s0 & Hs0) Hr. rewrite as_constraint_unfold.
      assert (Hi0 : exists m0, init_model ord items = Ok m0).
      { apply init_model_succeeds; auto using items_dict, items_par.
        - intros k c Hin. apply items_in in Hin as [_ ->]. eauto.
        - apply (distinct_l items ditems Hn).
        - intros s Hc. assert (Hp : forall x y, clos_trans sym (refers_other items) x y -> x = w /\ y <> w).
          { intros x y Hp. induction Hp as [x y [(e & Hin & Hm) Hne]|x y z _ [-> Hy] _ [-> Hz]]; [|congruence].
            apply items_in in Hin as [-> Hin]. split; [reflexivity|exact Hne]. }
          destruct (Hp s s Hc); contradiction.
        - exists w, s0. split; [exists (sub l h); split; [left; reflexivity|exact Hs0]|]. intros ->; contradiction. }
      destruct Hi0 as (m0 & Hm0).
      destruct (with_dependencies_succeeds ord ordd items ditems dm Ho Hod items_dict Hdd Hdm Hn Hkpd m0 Hm0 items_par items_sep) as (m' & Hw).
      rewrite Hw. cbn [bind]. destruct Hr as [->|[->| ->]]; reflexivity.
    Qed.
  End Constraint.
End AsConstraint.
