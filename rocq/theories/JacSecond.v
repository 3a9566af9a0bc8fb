(** * JacSecond: the Hessian system computes second derivatives. *)
From Coq Require Import Reals Lra.
From Coquelicot Require Import Coquelicot.
From Coq Require Import Relations.
From Verif Require Import PyBase PyFacts Toposort ToposortFacts Signature SignatureFacts Expr Model ModelSpec ModelFacts CallFacts InitFacts ConstraintFacts AsConstraint ExprR Jacobian JacFacts JacAnalysis Twice.
Local Open Scope R_scope.

(** The solution as a function of the inputs. *)
Lemma solution_map {V} (A : alg V) ord (items : dict sym (comp (V:=V))) m : set_order ord -> is_dict items -> no_self_reference items ->
  init_model ord items = Ok m -> exists sol : (sym -> V) -> sym -> V, forall inp, solution A items inp (sol inp).
Proof.
  intros Ho Hd Hself Hi. destruct (init_model_inv _ _ _ Hi) as (Hs & H1 & H2 & Hc).
  destruct (classify_inv _ _ _ _ Hc) as (l0 & mid & top & Ht & _).
  rewrite <- H2 in Ht. destruct (toposort_ordered ord m _ Ht) as (syms & Hsyms).
  pose proof (conn_nodup ord items m Hd Hi) as Hndc.
  destruct (ordered_symbols_ok ord m syms Ho Hndc Hsyms) as (Hnd & Hnode & Hwo).
  exists (fun inp => fold_left (build_step A items) syms inp). intros inp.
  destruct (build_ok A items inp Hd syms) as [Hb1 Hb2]; auto.
  { intros k e Hk Hin s Hso ->. apply (Hself k). exists e; split; [exact Hin|left; exact Hso]. }
  { intros p x q Hq y [Hne Hr]. apply (Hwo p x q Hq y). split; [|exact Hne]. apply (edge_items ord items m Ho Hi); exact Hr. }
  split; [|exact Hb2]. intros k e Hin. apply Hb1; [|exact Hin]. apply Hnode, (node_items ord items m Ho Hi). left.
  eapply key_of; exact Hin.
Qed.

Section Order2.
  Notation comp := (comp (V:=R)).
  Notation model := (model (V:=R)).
  Context (simp : expr -> expr) (ord1 ord2 : list sym -> list sym) (items : dict sym comp) (m0 m : model) (ps : list sym) (v2f : dict sym fobj).
  Hypothesis Hsimp : simp_ok simp.
  Hypothesis Ho1 : set_order ord1.
  Hypothesis Ho2 : set_order ord2.
  Hypothesis Hd : is_dict items.
  Hypothesis Hself : no_self_reference items.
  Hypothesis Hkeys : forall k, In k (dkeys items) -> exists n, k = SVar n.
  Hypothesis Hnoder : forall k s, refers items k s -> is_der s = false.
  Hypothesis Hi : init_model ord1 items = Ok m0.
  Hypothesis Hp : set_params m0 ps = Ok m.
  Hypothesis Hps : forall p, In p ps -> is_par p = true.
  Hypothesis Hv : vars_as_functions ord2 m = Ok v2f.
  Context (sol : (sym -> R) -> sym -> R).
  Hypothesis Hsol : forall inp, solution Ralg items inp (sol inp).
  Context (J H : dict sym comp).
  Hypothesis HJ : jac_items simp v2f ps (m_dict m) = Ok J.
  Hypothesis HH : jac_items simp v2f ps J = Ok H.
  Hypothesis HnJ : distinct_names J.

  Let Hsymb : symbolic items := proj1 (init_model_inv _ _ _ Hi).
  Let ind := item_ind ord1 ord2 items m0 m ps v2f Ho1 Ho2 Hd Hself Hi Hp Hv.
  Let AJ : above items J := above_J simp (proj1 Hsimp) ord1 ord2 items m0 m ps v2f Ho1 Ho2 Hd Hself Hkeys Hnoder Hi Hp Hv J HJ.
  Let AH : above items H := above_H simp (proj1 Hsimp) ord1 ord2 items m0 m ps v2f Ho1 Ho2 Hd Hself Hkeys Hnoder Hi Hp Hv J H HJ HH.
  Let kexpr := key_expr ord1 items m0 Hi.
  Let fo := first_order_on simp ord1 ord2 items m0 m ps v2f Hsimp Ho1 Ho2 Hd Hself Hkeys Hnoder Hi Hp Hps Hv sol Hsol J HJ.
  Let sext := sol_ext ord1 ord2 items m0 m ps v2f Ho1 Ho2 Hd Hself Hi Hp Hv sol Hsol.
  Let sindep := sol_indep ord1 ord2 items m0 m ps v2f Ho1 Ho2 Hd Hself Hi Hp Hv sol Hsol.
  Let agJ := agree_J simp ord1 ord2 items m0 m ps v2f Hsimp Ho1 Ho2 Hd Hself Hkeys Hnoder Hi Hp Hv sol Hsol J HJ.
  Notation dval := (dval items).
  Notation defs := (defs items sol).

  Lemma J_unique inp v1 v2 : solution Ralg J inp v1 -> solution Ralg J inp v2 -> forall s, v1 s = v2 s.
  Proof.
    intros S1 S2 s. destruct (in_dec eq_dec s (dkeys J)) as [Hk|Hk].
    - destruct (above_init ord1 items m0 Ho1 Hd Hself Hkeys Hi J AJ HnJ ord1 Ho1) as (xm & Hx).
      destruct (solution_exists Ralg ord1 J xm inp Ho1 (ab_dict _ _ AJ) (above_self items Hself J AJ) Hx) as (v & _ & Hu).
      rewrite (Hu v1 S1 s Hk), (Hu v2 S2 s Hk). reflexivity.
    - rewrite (proj2 S1 s Hk), (proj2 S2 s Hk). reflexivity.
  Qed.
  Lemma J_inp_ext inp inp' v : (forall s, inp s = inp' s) -> solution Ralg J inp v -> solution Ralg J inp' v.
  Proof. intros He [S1 S2]. split; [exact S1|]. intros s Hs. rewrite <- He. apply S2; exact Hs. Qed.

  (** restricting a solution of the Hessian system gives one of the Jacobian system *)
  Definition restrJ (inp valH : sym -> R) (s : sym) : R := if inb s (dkeys J) then valH s else inp s.
  Lemma restrJ_occ inp valH k e s : solution Ralg H inp valH -> In (k, CExpr e) J -> In s (occs e) -> restrJ inp valH s = valH s.
  Proof.
    intros [S1 S2] Hin Hs. unfold restrJ. destruct (inb s (dkeys J)) eqn:Hb; [reflexivity|]. apply inb_false in Hb.
    symmetry. apply S2. assert (Hr : refers J k s) by (exists e; split; [exact Hin|left; exact Hs]).
    assert (Hder : is_der s = false).
    { destruct (is_der s) eqn:Hds; [|reflexivity]. exfalso. apply Hb. apply (ab_der _ _ AJ k); assumption. }
    intros Hk. apply Hb. apply (above_key_iff items J AJ s Hder). apply (above_key_iff items H AH s Hder); exact Hk.
  Qed.
  Lemma restrJ_solution inp valH : solution Ralg H inp valH -> solution Ralg J inp (restrJ inp valH).
  Proof.
    intros HS. pose proof HS as [S1 S2]. split.
    - intros k e Hin. unfold restrJ at 1. rewrite (proj2 (inb_In k (dkeys J)) (key_of _ _ _ Hin)).
      rewrite (S1 k e (H_keep simp m ps v2f J H HJ HH _ _ Hin)). apply eval_ext. intros s Hs. symmetry. eapply restrJ_occ; eauto.
    - intros s Hs. unfold restrJ. rewrite (proj2 (inb_false s (dkeys J)) Hs). reflexivity.
  Qed.

  Definition dval2 (valH : sym -> R) (p q z : sym) : R := match z with SVar y => if inb z (dkeys items) then valH (SDer y [sname p; sname q]) else 0 | _ => 0 end.
  Lemma upd_comm (i : sym -> R) p q t u s : p <> q -> upd (upd i p t) q u s = upd (upd i q u) p t s.
  Proof. intros Hne. unfold upd. destruct (eq_dec s q), (eq_dec s p); congruence. Qed.
  (** in the components of [B], which is closed under references *)
  Section PointOn.
    Context (B : sym -> Prop).
    Hypothesis HB : forall k s, B k -> refers items k s -> B s.
    Context (inp : sym -> R) (valH : sym -> R) (solJ : (sym -> R) -> sym -> R) (eps : R).
    Hypothesis HsH : solution Ralg H inp valH.
    Hypothesis HsJ : forall inp', solution Ralg J inp' (solJ inp').
    Hypothesis Heps : 0 < eps.
    Hypothesis Hloc : forall inp', (forall s, Rabs (inp' s - inp s) < eps) -> (forall s, is_par s = false -> inp' s = inp s) -> defs_on items sol B inp'.

    Lemma loc1_on q u : In q ps -> Rabs (u - inp q) < eps -> defs_on items sol B (upd inp q u).
    Proof.
      intros Hq Hu. apply Hloc.
      - intros s. unfold upd. destruct (eq_dec s q) as [->|]; [exact Hu|]. rewrite Rminus_eq_0, Rabs_R0; exact Heps.
      - intros s Hs. apply upd_ne. intros ->. rewrite (Hps q Hq) in Hs; discriminate.
    Qed.
    Lemma near_on q : In q ps -> locally (inp q) (fun u => defs_on items sol B (upd inp q u)).
    Proof.
      intros Hq. exists (mkposreal eps Heps). intros u Hu. apply loc1_on; [exact Hq|exact Hu].
    Qed.
    Lemma defs_here_on : defs_on items sol B inp.
    Proof. apply Hloc; [intros s; rewrite Rminus_eq_0, Rabs_R0; exact Heps|auto]. Qed.

    Notation dval2 := (dval2 valH).
    Lemma sym_derived_on p z u : In p ps -> symbol_of items z -> B z -> defs_on items sol B u -> Derive (fun t => sol (upd u p t) z) (u p) = dval (solJ u) p z.
    Proof. intros Hpp Hz Bz Hu. apply is_derive_unique. apply (fo B); auto. Qed.

    (** mixed derivatives of the components are equal *)
    Lemma sol_twice_on p q z : In p ps -> In q ps -> p <> q -> symbol_of items z -> B z ->
      twice (fun t u => sol (upd (upd inp p t) q u) z) (inp p) (inp q).
    Proof.
      intros Hpp Hq Hne. revert z. apply (ind (fun z => B z -> twice (fun t u => sol (upd (upd inp p t) q u) z) (inp p) (inp q))).
      intros z Hz IH Bz. destruct (in_dec eq_dec z (dkeys items)) as [Hk|Hk].
      - destruct (kexpr z Hk) as (e & Hin).
        apply (twice_ext (fun t u => eval Ralg (sol (upd (upd inp p t) q u)) e)).
        { intros t u. symmetry. apply (proj1 (Hsol _)); exact Hin. }
        apply eval_twice.
        + intros s Hs. assert (Hr : refers items z s) by (exists e; split; [exact Hin|left; exact Hs]). apply IH; [exact Hr|exact (HB _ _ Bz Hr)].
        + exists (mkposreal eps Heps). intros t u Ht Hu. simpl in Ht, Hu. refine (Hloc _ _ _ z e Bz Hin).
          * intros s. unfold upd. destruct (eq_dec s q) as [->|]; [exact Hu|]. destruct (eq_dec s p) as [->|]; [exact Ht|].
            rewrite Rminus_eq_0, Rabs_R0; exact Heps.
          * intros s Hs. unfold upd. destruct (eq_dec s q) as [->|]; [rewrite (Hps q Hq) in Hs; discriminate|].
            destruct (eq_dec s p) as [->|]; [rewrite (Hps p Hpp) in Hs; discriminate|reflexivity].
      - apply (twice_ext (fun t u => upd (upd inp p t) q u z)).
        { intros t u. symmetry. apply (proj2 (Hsol _)); exact Hk. }
        unfold upd. destruct (eq_dec z q); [apply twice_snd|]. destruct (eq_dec z p); [apply twice_fst|apply twice_const].
    Qed.

    Lemma schwarz_on p q z : In p ps -> In q ps -> symbol_of items z -> B z ->
      is_derive (fun u => dval (solJ (upd inp q u)) p z) (inp q) (dval2 p q z) ->
      is_derive (fun u => dval (solJ (upd inp p u)) q z) (inp p) (dval2 q p z) -> dval2 p q z = dval2 q p z.
    Proof.
      intros Hpp Hq Hz Bz H1 H2. destruct (eq_dec p q) as [->|Hne]; [reflexivity|].
      apply (twice_schwarz _ _ _ _ _ (sol_twice_on p q z Hpp Hq Hne Hz Bz)).
      - eapply is_derive_ext_loc; [|exact H1]. eapply filter_imp; [|exact (near_on q Hq)].
        intros u Hu. cbv beta. rewrite <- (sym_derived_on p z (upd inp q u) Hpp Hz Bz Hu).
        rewrite (upd_ne inp q u p) by exact Hne.
        apply Derive_ext. intros t. apply sext; [|exact Hz]. intros s. symmetry; apply upd_comm; exact Hne.
      - eapply is_derive_ext_loc; [|exact H2]. eapply filter_imp; [|exact (near_on p Hpp)].
        intros t Ht. cbv beta. rewrite <- (sym_derived_on q z (upd inp p t) Hq Hz Bz Ht).
        rewrite (upd_ne inp p t q) by congruence. reflexivity.
    Qed.

    Lemma second_order_on : forall z, symbol_of items z -> B z -> forall p q, In p ps -> In q ps ->
      is_derive (fun u => dval (solJ (upd inp q u)) p z) (inp q) (dval2 p q z).
    Proof.
      apply (ind (fun z => B z -> forall p q, In p ps -> In q ps -> is_derive (fun u => dval (solJ (upd inp q u)) p z) (inp q) (dval2 p q z))).
      intros z Hz IH Bz p q Hpp Hq. destruct (in_dec eq_dec z (dkeys items)) as [Hk|Hk].
      - destruct (Hkeys z Hk) as (y & ->). unfold JacAnalysis.dval, dval2. rewrite (proj2 (inb_In _ (dkeys items)) Hk). simpl der_of.
        destruct (kexpr _ Hk) as (e & Hin).
        destruct (J_row simp ord1 items m0 m ps v2f Hd Hkeys Hi Hp Hps J HJ y p e Hin Hpp) as (e' & He & HinJ).
        destruct (H_row simp ord1 items m0 m ps v2f Hd Hkeys Hi Hp Hps J H HJ HH y p q (simp e') HinJ Hq) as (e2 & He2 & HinH).
        rewrite (proj1 HsH _ _ HinH).
        (* agreement at the point *)
        assert (Hval0 : forall s, In s (occs (simp e')) -> valH s = solJ inp s).
        { intros s Hs. rewrite <- (restrJ_occ inp valH _ _ s HsH HinJ Hs).
          apply (J_unique inp _ _ (restrJ_solution inp valH HsH) (HsJ inp)). }
        assert (Hsame : forall s, solJ (upd inp q (inp q)) s = solJ inp s).
        { intros s. apply (J_unique inp); [|apply HsJ]. apply (J_inp_ext (upd inp q (inp q))); [intros; apply upd_same|apply HsJ]. }
        (* definedness *)
        assert (Hdefe : defined (solJ inp) e').
        { eapply diff_defined; [| |exact He].
          - intros s e1 Hs He1. revert He1. unfold diff_sym.
            destruct (dget v2f (base s)) as [[u|n args]|]; [intros Hqq; inv Hqq; exact I| |intros Hqq; inv Hqq; exact I].
            destruct (filter _ args) as [|[u|n' a'] [|? ?]]; intros Hqq; inv Hqq; exact I.
          - apply (defined_ext (sol inp)); [|apply (defs_here_on _ _ Bz Hin)]. intros s Hs. symmetry. apply agJ; [apply HsJ|].
            right. exists (SVar y), e. split; [exact Hin|left; exact Hs]. }
        destruct (proj2 Hsimp _ _ Hdefe) as [Hdefs _].
        assert (Hdef2 : defined valH e2).
        { eapply diff_defined; [| |exact He2].
          - intros s e1 Hs He1. revert He1. unfold diff_sym.
            destruct (dget v2f (base s)) as [[u|n args]|]; [intros Hqq; inv Hqq; exact I| |intros Hqq; inv Hqq; exact I].
            destruct (filter _ args) as [|[u|n' a'] [|? ?]]; intros Hqq; inv Hqq; exact I.
          - apply (defined_ext (solJ inp)); [|exact Hdefs]. intros; symmetry; apply Hval0; assumption. }
        rewrite (proj2 (proj2 Hsimp _ _ Hdef2)).
        apply (is_derive_ext (fun u => eval Ralg (solJ (upd inp q u)) (simp e'))).
        { intros u. symmetry. apply (proj1 (HsJ _)); exact HinJ. }
        apply (diff_sound (diff_sym v2f q)); [| | |exact He2].
        + intros s e1 Hs He1. destruct (J_occ simp (proj1 Hsimp) ord1 ord2 items m0 m ps v2f Ho1 Ho2 Hd Hself Hkeys Hnoder Hi Hp Hv J HJ _ _ s HinJ Hs)
            as [Hr|(y' & p' & -> & Hp' & Hy' & Hr)]; simpl base in Hr.
          * (* a symbol of the model *)
            assert (Hss : symbol_of items s) by (right; eauto).
            assert (Hfo : is_derive (fun u => sol (upd inp q u) s) (inp q) (dval (restrJ inp valH) q s)).
            { apply (fo B); auto; [apply restrJ_solution; exact HsH|exact defs_here_on|exact (HB _ _ Bz Hr)]. }
            apply (is_derive_ext (fun u => sol (upd inp q u) s)).
            { intros u. symmetry. apply agJ; [apply HsJ|exact Hss]. }
            rewrite (dsym_value ord1 ord2 items m0 m ps v2f Ho1 Ho2 Hd Hself Hkeys Hnoder Hi Hp Hv valH q s e1 (dval (restrJ inp valH) q s) Hq Hss He1); [exact Hfo| | |].
            -- intros Hsk Hon. apply is_derive_unique in Hfo. rewrite <- Hfo.
               rewrite (Derive_ext _ (fun _ => sol inp s)); [apply Derive_const|].
               intros t. apply (sindep q); auto; [apply (param_nonkey items ps Hkeys Hps); exact Hq|].
               intros w Hw. apply upd_ne; exact Hw.
            -- intros Hsk. unfold JacAnalysis.dval. rewrite (proj2 (inb_In s (dkeys items)) Hsk). unfold restrJ.
               destruct (Hkeys s Hsk) as (n & ->). simpl.
               rewrite (proj2 (inb_In _ _) (J_der_key simp ord1 items m0 m ps v2f Hd Hi Hp J HJ n q Hsk Hq)). reflexivity.
            -- intros Hsk. unfold JacAnalysis.dval. rewrite (proj2 (inb_false s (dkeys items)) Hsk). reflexivity.
          * (* a first derivative *)
            assert (Hss : symbol_of items (SVar y')) by (left; exact Hy').
            assert (IHy : forall a b, In a ps -> In b ps ->
              is_derive (fun u => solJ (upd inp b u) (SDer y' [sname a])) (inp b) (valH (SDer y' [sname a; sname b]))).
            { intros a b Hna Hnb. specialize (IH (SVar y') Hr (HB _ _ Bz Hr) a b Hna Hnb). unfold JacAnalysis.dval, dval2 in IH.
              rewrite (proj2 (inb_In _ (dkeys items)) Hy') in IH. exact IH. }
            destruct (diff_sym_key ord1 ord2 items m0 m ps v2f Ho1 Ho2 Hd Hself Hi Hp Hv (SDer y' [sname p']) q e1 Hy' He1) as [[Hon ->]|[_ ->]].
            -- simpl eval. simpl base in Hon. specialize (IHy p' q Hp' Hq).
               assert (Hz0 : is_derive (fun u => solJ (upd inp q u) (SDer y' [sname p'])) (inp q) 0).
               { apply (is_derive_ext_loc (fun u => Derive (fun t => sol (upd inp p' (if eq_dec p' q then inp q else t)) (SVar y')) (inp p'))); [|apply der_const].
                 eapply filter_imp; [|exact (near_on q Hq)]. intros u Hu. cbv beta.
                 pose proof (sym_derived_on p' (SVar y') (upd inp q u) Hp' Hss (HB _ _ Bz Hr) Hu) as Hsd. unfold JacAnalysis.dval in Hsd.
                 rewrite (proj2 (inb_In _ (dkeys items)) Hy') in Hsd. simpl in Hsd. rewrite <- Hsd. clear Hsd.
                 destruct (eq_dec p' q) as [->|Hne].
                 - rewrite Derive_const. symmetry. rewrite (Derive_ext _ (fun _ => sol inp (SVar y'))); [apply Derive_const|].
                   intros t. apply (sindep q); [apply (param_nonkey items ps Hkeys Hps); exact Hq| |exact Hss|intros _; exact Hon|tauto].
                   intros w Hw. rewrite !upd_ne by exact Hw. reflexivity.
                 - rewrite (upd_ne inp q u p') by exact Hne. apply Derive_ext. intros t.
                   apply (sindep q); [apply (param_nonkey items ps Hkeys Hps); exact Hq| |exact Hss|intros _; exact Hon|tauto].
                   intros w Hw. unfold upd. destruct (eq_dec w p'); [reflexivity|]. destruct (eq_dec w q); [congruence|reflexivity]. }
               exact Hz0.
            -- simpl der_of. simpl app. destruct (canon_two y' (sname p') (sname q)) as [Hcc|Hcc]; rewrite Hcc; simpl eval.
               ++ apply IHy; assumption.
               ++ assert (Hsw : dval2 p' q (SVar y') = dval2 q p' (SVar y')) by (apply (schwarz_on p' q (SVar y') Hp' Hq Hss (HB _ _ Bz Hr)); exact (IH (SVar y') Hr (HB _ _ Bz Hr) _ _ Hp' Hq) || exact (IH (SVar y') Hr (HB _ _ Bz Hr) _ _ Hq Hp')).
                  unfold dval2 in Hsw. rewrite (proj2 (inb_In _ (dkeys items)) Hy') in Hsw. rewrite <- Hsw. apply IHy; assumption.
        + intros s Hs. rewrite Hsame. apply Hval0; exact Hs.
        + apply (defined_ext (solJ inp)); [intros; symmetry; apply Hsame|exact Hdefs].
      - assert (Hd2 : dval2 p q z = 0). { unfold dval2. destruct z; auto. rewrite (proj2 (inb_false _ (dkeys items)) Hk). reflexivity. }
        rewrite Hd2. unfold JacAnalysis.dval. rewrite (proj2 (inb_false z (dkeys items)) Hk). apply der_const.
    Qed.
  End PointOn.

  Section Point.
    Context (inp : sym -> R) (valH : sym -> R) (solJ : (sym -> R) -> sym -> R) (eps : R).
    Hypothesis HsH : solution Ralg H inp valH.
    Hypothesis HsJ : forall inp', solution Ralg J inp' (solJ inp').
    Hypothesis Heps : 0 < eps.
    Hypothesis Hloc : forall inp', (forall s, Rabs (inp' s - inp s) < eps) -> (forall s, is_par s = false -> inp' s = inp s) -> defs inp'.
    Let all := fun _ : sym => True.
    Let Hall : forall k s, all k -> refers items k s -> all s := fun _ _ _ _ => I.
    Let Hloc_all : forall inp', (forall s, Rabs (inp' s - inp s) < eps) -> (forall s, is_par s = false -> inp' s = inp s) -> defs_on items sol all inp' :=
      fun inp' H1 H2 k e _ => Hloc inp' H1 H2 k e.
    Lemma near q : In q ps -> locally (inp q) (fun u => defs (upd inp q u)).
    Proof.
      intros Hq. eapply filter_imp; [|exact (near_on all inp eps Heps Hloc_all q Hq)]. intros u Hu k e. exact (Hu k e I).
    Qed.
    Lemma defs_here : defs inp.
    Proof. intros k e. exact (defs_here_on all inp eps Heps Hloc_all k e I). Qed.
    Lemma valH_J s : In s (dkeys J) -> valH s = solJ inp s.
    Proof.
      intros Hs. rewrite <- (J_unique inp _ _ (restrJ_solution inp valH HsH) (HsJ inp) s). unfold restrJ.
      rewrite (proj2 (inb_In s (dkeys J)) Hs). reflexivity.
    Qed.
    Lemma sym_derived p z u : In p ps -> symbol_of items z -> defs u -> Derive (fun t => sol (upd u p t) z) (u p) = dval (solJ u) p z.
    Proof. intros Hpp Hz Hu. apply is_derive_unique. apply (fo all); auto; try exact I. all: intros k e _; exact (Hu k e). Qed.
    Lemma sol_twice p q z : In p ps -> In q ps -> p <> q -> symbol_of items z ->
      twice (fun t u => sol (upd (upd inp p t) q u) z) (inp p) (inp q).
    Proof. intros Hpp Hq Hne Hz. exact (sol_twice_on all Hall inp eps Heps Hloc_all p q z Hpp Hq Hne Hz I). Qed.
    Lemma schwarz p q z : In p ps -> In q ps -> symbol_of items z ->
      is_derive (fun u => dval (solJ (upd inp q u)) p z) (inp q) (dval2 valH p q z) ->
      is_derive (fun u => dval (solJ (upd inp p u)) q z) (inp p) (dval2 valH q p z) -> dval2 valH p q z = dval2 valH q p z.
    Proof. intros Hpp Hq Hz. exact (schwarz_on all Hall inp valH solJ eps HsJ Heps Hloc_all p q z Hpp Hq Hz I). Qed.
    Lemma second_order : forall z, symbol_of items z -> forall p q, In p ps -> In q ps ->
      is_derive (fun u => dval (solJ (upd inp q u)) p z) (inp q) (dval2 valH p q z).
    Proof. intros z Hz. exact (second_order_on all Hall inp valH solJ eps HsH HsJ Heps Hloc_all z Hz I). Qed.
  End Point.
End Order2.
