(** * JacAnalysis: the symbolic derivatives are derivatives. *)
From Coq Require Import Reals Lra.
From Coquelicot Require Import Coquelicot.
From Coq Require Import Relations.
From Verif Require Import PyBase PyFacts Toposort ToposortFacts Signature SignatureFacts Expr Model ModelSpec ModelFacts CallFacts InitFacts ConstraintFacts AsConstraint ExprR Jacobian JacFacts.
Local Open Scope R_scope.

(** The numerical value of [e] at [env] is defined: no division by zero, no
    logarithm of a non-positive number. *)
Fixpoint defined (env : sym -> R) (e : expr) : Prop :=
  match e with
  | ENum _ | ESym _ => True
  | EAdd a b | EMul a b => defined env a /\ defined env b
  | EPow a _ => defined env a
  | EInv a => defined env a /\ eval Ralg env a <> 0
  | EFun f a => defined env a /\ match f with Flog => 0 < eval Ralg env a | _ => True end
  end.

Lemma a_pow_R x n : a_pow Ralg x n = x ^ n.
Proof. induction n as [|n IH]; simpl; [reflexivity|]. rewrite IH; reflexivity. Qed.

Lemma defined_ext env env' e : (forall s, In s (occs e) -> env s = env' s) -> defined env e -> defined env' e.
Proof.
  induction e as [z|s|a IHa b IHb|a IHa b IHb|a IHa n|a IHa|f a IHa]; simpl; intros He Hd; auto.
  - destruct Hd; split; [apply IHa|apply IHb]; auto; intros; apply He, in_or_app; auto.
  - destruct Hd; split; [apply IHa|apply IHb]; auto; intros; apply He, in_or_app; auto.
  - destruct Hd as [H1 H2]. split; [auto|]. rewrite <- (eval_ext Ralg env env') by auto. exact H2.
  - destruct Hd as [H1 H2]. split; [auto|]. rewrite <- (eval_ext Ralg env env') by auto. exact H2.
Qed.

Lemma diff_defined ds env e : forall e', (forall s e1, In s (occs e) -> ds s = Ok e1 -> defined env e1) ->
  defined env e -> diff ds e = Ok e' -> defined env e'.
Proof.
  induction e as [z|s|a IHa b IHb|a IHa b IHb|a IHa n|a IHa|f a IHa]; simpl; intros e' Hds Hd He.
  - inv He. exact I.
  - eapply Hds; eauto.
  - apply bind_Ok in He as (a' & Ha & He). apply bind_Ok in He as (b' & Hb & He). inv He. destruct Hd.
    simpl. split; [apply IHa|apply IHb]; auto; intros; eapply Hds; eauto; apply in_or_app; auto.
  - apply bind_Ok in He as (a' & Ha & He). apply bind_Ok in He as (b' & Hb & He). inv He. destruct Hd. simpl.
    assert (defined env a') by (apply IHa; auto; intros; eapply Hds; eauto; apply in_or_app; auto).
    assert (defined env b') by (apply IHb; auto; intros; eapply Hds; eauto; apply in_or_app; auto). tauto.
  - apply bind_Ok in He as (a' & Ha & He). inv He. assert (defined env a') by (apply IHa; auto). destruct n; simpl; tauto.
  - apply bind_Ok in He as (a' & Ha & He). inv He. destruct Hd. assert (defined env a') by (apply IHa; auto). simpl. tauto.
  - apply bind_Ok in He as (a' & Ha & He). inv He. destruct Hd as [Hd Hf]. assert (defined env a') by (apply IHa; auto).
    destruct f; simpl; try tauto. split; [tauto|]. split; [exact Hd|lra].
Qed.

Lemma der_const (c x : R) : is_derive (fun _ : R => c) x 0.
Proof. exact (is_derive_const (K:=R_AbsRing) (V:=R_NormedModule) c x). Qed.
Lemma der_mult (f g : R -> R) x f' g' : is_derive f x f' -> is_derive g x g' ->
  is_derive (fun t => f t * g t) x (f' * g x + f x * g').
Proof. intros Hf Hg. apply (is_derive_mult f g x f' g' Hf Hg). intros; apply Rmult_comm. Qed.
Lemma der_plus (f g : R -> R) x f' g' : is_derive f x f' -> is_derive g x g' ->
  is_derive (fun t => f t + g t) x (f' + g').
Proof. intros Hf Hg. exact (is_derive_plus f g x f' g' Hf Hg). Qed.
Lemma der_comp (f g : R -> R) x f' g' : is_derive f (g x) f' -> is_derive g x g' ->
  is_derive (fun t => f (g t)) x (g' * f').
Proof. intros Hf Hg. exact (is_derive_comp f g x f' g' Hf Hg). Qed.

(** The elementary rules. *)
Lemma diff_sound ds (E : R -> sym -> R) (E' : sym -> R) u0 e : forall e',
  (forall s e1, In s (occs e) -> ds s = Ok e1 -> is_derive (fun u => E u s) u0 (eval Ralg E' e1)) ->
  (forall s, In s (occs e) -> E' s = E u0 s) -> defined (E u0) e -> diff ds e = Ok e' ->
  is_derive (fun u => eval Ralg (E u) e) u0 (eval Ralg E' e').
Proof.
  induction e as [z|s|a IHa b IHb|a IHa b IHb|a IHa n|a IHa|f a IHa]; intros e' Hds Hag Hd He.
  - simpl in *. inv He. simpl. apply der_const.
  - simpl in *. eapply Hds; auto.
  - simpl in He. apply bind_Ok in He as (a' & Ha & He). apply bind_Ok in He as (b' & Hb & He). inv He. destruct Hd as [Hda Hdb]. simpl.
    apply (der_plus (fun u => eval Ralg (E u) a) (fun u => eval Ralg (E u) b)).
    + apply IHa; auto; intros; [eapply Hds; eauto|apply Hag]; simpl; apply in_or_app; auto.
    + apply IHb; auto; intros; [eapply Hds; eauto|apply Hag]; simpl; apply in_or_app; auto.
  - simpl in He. apply bind_Ok in He as (a' & Ha & He). apply bind_Ok in He as (b' & Hb & He). inv He. destruct Hd as [Hda Hdb]. simpl.
    rewrite (eval_ext Ralg E' (E u0) a), (eval_ext Ralg E' (E u0) b) by (intros; apply Hag; simpl; apply in_or_app; auto).
    apply (der_mult (fun u => eval Ralg (E u) a) (fun u => eval Ralg (E u) b)).
    + apply IHa; auto; intros; [eapply Hds; eauto|apply Hag]; simpl; apply in_or_app; auto.
    + apply IHb; auto; intros; [eapply Hds; eauto|apply Hag]; simpl; apply in_or_app; auto.
  - simpl in He. apply bind_Ok in He as (a' & Ha & He). inv He. simpl.
    assert (Hda : is_derive (fun u => eval Ralg (E u) a) u0 (eval Ralg E' a')) by (apply IHa; auto).
    apply (is_derive_ext (fun u => eval Ralg (E u) a ^ n)); [intros t; symmetry; apply a_pow_R|].
    destruct n as [|k].
    + simpl. apply der_const.
    + simpl. rewrite a_pow_R, (eval_ext Ralg E' (E u0) a) by (intros; apply Hag; auto).
      pose proof (is_derive_pow (fun u => eval Ralg (E u) a) (S k) u0 _ Hda) as H. rewrite INR_IZR_INZ in H. simpl pred in H.
      rewrite Rmult_assoc, (Rmult_comm _ (eval Ralg E' a')), <- Rmult_assoc. exact H.
  - simpl in He. apply bind_Ok in He as (a' & Ha & He). inv He. destruct Hd as [Hda Hne]. simpl.
    assert (H : is_derive (fun u => eval Ralg (E u) a) u0 (eval Ralg E' a')) by (apply IHa; auto).
    rewrite (eval_ext Ralg E' (E u0) a) by (intros; apply Hag; auto).
    pose proof (is_derive_inv (fun u => eval Ralg (E u) a) u0 _ H Hne) as Hi.
    replace (-1 * _) with (- eval Ralg E' a' / (eval Ralg (E u0) a) ^ 2) by (field; exact Hne). exact Hi.
  - simpl in He. apply bind_Ok in He as (a' & Ha & He). inv He. destruct Hd as [Hda Hf].
    assert (H : is_derive (fun u => eval Ralg (E u) a) u0 (eval Ralg E' a')) by (apply IHa; auto).
    assert (Hq : eval Ralg E' a = eval Ralg (E u0) a) by (apply eval_ext; intros; apply Hag; auto).
    destruct f; simpl; rewrite Hq.
    + apply (der_comp exp (fun u => eval Ralg (E u) a)); [apply is_derive_exp|exact H].
    + apply (der_comp ln (fun u => eval Ralg (E u) a)); [apply is_derive_ln; exact Hf|exact H].
    + apply (der_comp sin (fun u => eval Ralg (E u) a)); [apply is_derive_sin|exact H].
    + replace (-1 * _) with (eval Ralg E' a' * (- sin (eval Ralg (E u0) a))) by ring.
      apply (der_comp cos (fun u => eval Ralg (E u) a)); [apply is_derive_cos|exact H].
Qed.

(** What is assumed of sympy's simplification of a derivative: it introduces no
    symbols and changes neither the value of a defined expression nor its being
    defined. *)
Definition simp_ok (simp : expr -> expr) : Prop :=
  (forall e s, In s (occs (simp e)) -> In s (occs e)) /\
  (forall env e, defined env e -> defined env (simp e) /\ eval Ralg env (simp e) = eval Ralg env e).

Section Order1.
  Notation comp := (comp (V:=R)).
  Notation model := (model (V:=R)).
  Context (simp : expr -> expr) (ord1 ord2 : list sym -> list sym) (items : dict sym comp) (m0 m : model) (ps : list sym) (v2f : dict sym fobj).
  Hypothesis Hsimp : simp_ok simp.
  Hypothesis Ho1 : set_order ord1.
  Hypothesis Ho2 : set_order ord2.
  Hypothesis Hd : is_dict items.
  Hypothesis Hself : no_self_reference items.
  Hypothesis Hkeys : forall k, In k (dkeys items) -> exists n, k = SVar n.
  Hypothesis Hnoder : forall k s, refers items k s -> is_der s = false.
  Hypothesis Hi : init_model ord1 items = Ok m0.
  Hypothesis Hp : set_params m0 ps = Ok m.
  Hypothesis Hps : forall p, In p ps -> is_par p = true.
  Hypothesis Hv : vars_as_functions ord2 m = Ok v2f.
  Context (sol : (sym -> R) -> sym -> R).
  Hypothesis Hsol : forall inp, solution Ralg items inp (sol inp).

  Let Hsymb : symbolic items := proj1 (init_model_inv _ _ _ Hi).
  Let ind := item_ind ord1 ord2 items m0 m ps v2f Ho1 Ho2 Hd Hself Hi Hp Hv.
  Let oniff := on_iff ord1 ord2 items m0 m ps v2f Ho1 Ho2 Hd Hself Hi Hp Hv.

  Definition defs (inp : sym -> R) : Prop := forall k e, In (k, CExpr e) items -> defined (sol inp) e.

  (** .. for the components in [B] only *)
  Definition defs_on (B : sym -> Prop) (inp : sym -> R) : Prop := forall k e, B k -> In (k, CExpr e) items -> defined (sol inp) e.

  Lemma key_expr k : In k (dkeys items) -> exists e, In (k, CExpr e) items.
  Proof.
    intros Hk. apply in_map_iff in Hk as ([k' c] & Hk & Hin). simpl in Hk; subst k'. destruct (Hsymb _ _ Hin) as (e & ->). eauto.
  Qed.
  Lemma occ_symbol k e s : In (k, CExpr e) items -> In s (occs e) -> symbol_of items s /\ refers items k s.
  Proof. intros Hin Hs. assert (Hr : refers items k s) by (exists e; split; [exact Hin|left; exact Hs]). split; [right; eauto|exact Hr]. Qed.

  Lemma sol_ext inp inp' : (forall s, inp s = inp' s) -> forall z, symbol_of items z -> sol inp z = sol inp' z.
  Proof.
    intros He. apply ind. intros z Hz IH. destruct (Hsol inp) as [F1 F2]. destruct (Hsol inp') as [G1 G2].
    destruct (in_dec eq_dec z (dkeys items)) as [Hk|Hk].
    - destruct (key_expr z Hk) as (e & Hin). rewrite (F1 z e Hin), (G1 z e Hin). apply eval_ext. intros s Hs.
      apply IH. apply (occ_symbol z e s Hin Hs).
    - rewrite (F2 z Hk), (G2 z Hk). apply He.
  Qed.
  Lemma sol_indep p inp inp' : ~ In p (dkeys items) -> (forall s, s <> p -> inp s = inp' s) -> forall z, symbol_of items z ->
    (In z (dkeys items) -> ~ on v2f z p) -> (~ In z (dkeys items) -> z <> p) -> sol inp z = sol inp' z.
  Proof.
    intros Hpk He. apply (ind (fun z => (In z (dkeys items) -> ~ on v2f z p) -> (~ In z (dkeys items) -> z <> p) -> sol inp z = sol inp' z)).
    intros z Hz IH Hon Hne. destruct (Hsol inp) as [F1 F2]. destruct (Hsol inp') as [G1 G2].
    destruct (in_dec eq_dec z (dkeys items)) as [Hk|Hk].
    - destruct (key_expr z Hk) as (e & Hin). rewrite (F1 z e Hin), (G1 z e Hin). apply eval_ext. intros s Hs.
      destruct (occ_symbol z e s Hin Hs) as [_ Hr]. apply IH; [exact Hr| |].
      + intros Hsk Hsp. apply (Hon Hk). apply oniff; [exact Hk|]. exists s. auto.
      + intros Hsk ->. apply (Hon Hk). apply oniff; [exact Hk|]. exists p. auto.
    - rewrite (F2 z Hk), (G2 z Hk). apply He. auto.
  Qed.

  Lemma param_nonkey p : In p ps -> ~ In p (dkeys items).
  Proof. intros Hpp Hk. destruct (Hkeys p Hk) as (n & ->). apply Hps in Hpp. discriminate. Qed.

  Lemma upd_same (inp : sym -> R) p (s : sym) : upd inp p (inp p) s = inp s.
  Proof. unfold upd. destruct (eq_dec s p) as [->|]; reflexivity. Qed.
  Lemma upd_eq (inp : sym -> R) p v : upd inp p v p = v.
  Proof. unfold upd. destruct (eq_dec p p); congruence. Qed.
  Lemma upd_ne (inp : sym -> R) p v s : s <> p -> upd inp p v s = inp s.
  Proof. unfold upd. destruct (eq_dec s p); congruence. Qed.

  Section J.
    Context (J : dict sym comp).
    Hypothesis HJ : jac_items simp v2f ps (m_dict m) = Ok J.
    Let AJ : above items J := above_J simp (proj1 Hsimp) ord1 ord2 items m0 m ps v2f Ho1 Ho2 Hd Hself Hkeys Hnoder Hi Hp Hv J HJ.

    Lemma agree_J inp valJ : solution Ralg J inp valJ -> forall z, symbol_of items z -> valJ z = sol inp z.
    Proof.
      intros Hx. exact (above_agree Ralg ord1 ord2 items m0 m ps v2f Ho1 Ho2 Hd Hself Hkeys Hnoder Hi Hp Hv J AJ inp (sol inp) valJ Hx (Hsol inp)).
    Qed.

    (** derivative of any symbol of the model *)
    Definition dval (valx : sym -> R) (p z : sym) : R :=
      if inb z (dkeys items) then valx (der_of z (sname p)) else if eqb z p then 1 else 0.

    (** a symbol and its symbolic derivative *)
    Lemma dsym_value valx p s e1 r : In p ps -> symbol_of items s -> diff_sym v2f p s = Ok e1 ->
      (In s (dkeys items) -> ~ on v2f s p -> r = 0) -> (In s (dkeys items) -> r = valx (der_of s (sname p))) ->
      (~ In s (dkeys items) -> r = if eqb s p then 1 else 0) ->
      eval Ralg valx e1 = r.
    Proof.
      intros Hpp Hs He H0 H1 H2. destruct (in_dec eq_dec s (dkeys items)) as [Hk|Hk].
      - destruct (Hkeys s Hk) as (n & ->).
        destruct (diff_sym_key ord1 ord2 items m0 m ps v2f Ho1 Ho2 Hd Hself Hi Hp Hv (SVar n) p e1 Hk He) as [[Hn ->]|[_ ->]].
        + simpl. symmetry. apply H0; auto.
        + simpl. rewrite (H1 Hk). reflexivity.
      - assert (Hb : base s = s).
        { destruct s; try reflexivity. destruct Hs as [H|(k & Hr)]; [contradiction|]. apply Hnoder in Hr. discriminate. }
        rewrite (diff_sym_other ord1 ord2 items m0 m ps v2f Ho1 Ho2 Hd Hself Hi Hp Hv s p) in He by (rewrite Hb; exact Hk).
        inv He. simpl. rewrite (H2 Hk). destruct (eqb s p); reflexivity.
    Qed.

    Lemma first_order_on (B : sym -> Prop) p inp valJ : (forall k s, B k -> refers items k s -> B s) -> In p ps -> solution Ralg J inp valJ -> defs_on B inp ->
      forall z, symbol_of items z -> B z -> is_derive (fun t => sol (upd inp p t) z) (inp p) (dval valJ p z).
    Proof.
      intros HB Hpp HsJ Hdef. apply (ind (fun z => B z -> is_derive (fun t => sol (upd inp p t) z) (inp p) (dval valJ p z))).
      intros z Hz IH Bz. destruct (in_dec eq_dec z (dkeys items)) as [Hk|Hk].
      - unfold dval. rewrite (proj2 (inb_In z (dkeys items)) Hk). destruct (Hkeys z Hk) as (y & ->). simpl.
        destruct (key_expr _ Hk) as (e & Hin).
        destruct (J_row simp ord1 items m0 m ps v2f Hd Hkeys Hi Hp Hps J HJ y p e Hin Hpp) as (e' & He & HinJ).
        destruct HsJ as [HJ1 HJ2]. assert (HsJ : solution Ralg J inp valJ) by (split; assumption).
        rewrite (HJ1 _ _ HinJ).
        assert (Hval : forall s, In s (occs e) -> valJ s = sol (upd inp p (inp p)) s).
        { intros s Hs. destruct (occ_symbol _ _ _ Hin Hs) as [Hss _]. rewrite (agree_J inp valJ HsJ s Hss).
          symmetry. apply sol_ext; [|exact Hss]. intros u. apply upd_same. }
        assert (Hdf : defined (sol (upd inp p (inp p))) e).
        { apply (defined_ext (sol inp)); [|apply (Hdef _ _ Bz Hin)]. intros s Hs. destruct (occ_symbol _ _ _ Hin Hs) as [Hss _].
          symmetry. apply sol_ext; [|exact Hss]. intros u. apply upd_same. }
        assert (Hdj : defined valJ e) by (apply (defined_ext (sol (upd inp p (inp p)))); [intros; symmetry; apply Hval; assumption|exact Hdf]).
        assert (Hds : defined valJ e').
        { eapply diff_defined; [|exact Hdj|exact He]. intros s e1 Hs He1. revert He1. unfold diff_sym.
          destruct (dget v2f (base s)) as [[u|n args]|]; [intros Hq; inv Hq; exact I| |intros Hq; inv Hq; exact I].
          destruct (filter _ args) as [|[u|n' a'] [|? ?]]; intros Hq; inv Hq; exact I. }
        rewrite (proj2 (proj2 Hsimp valJ e' Hds)).
        apply (is_derive_ext (fun t => eval Ralg (sol (upd inp p t)) e)).
        { intros t. symmetry. apply (proj1 (Hsol (upd inp p t))); exact Hin. }
        apply (diff_sound (diff_sym v2f p)); [|exact Hval|exact Hdf|exact He].
        intros s e1 Hs He1. destruct (occ_symbol _ _ _ Hin Hs) as [Hss Hr]. specialize (IH s Hr (HB _ _ Bz Hr)).
        rewrite (dsym_value valJ p s e1 (dval valJ p s) Hpp Hss He1); [exact IH| | |].
        + intros Hsk Hon. apply (is_derive_unique (fun t => sol (upd inp p t) s)) in IH. rewrite <- IH.
          rewrite (Derive_ext _ (fun _ => sol inp s)); [apply Derive_const|].
          intros t. apply (sol_indep p); auto; [apply param_nonkey; exact Hpp|].
          intros u Hu. apply upd_ne; exact Hu.
        + intros Hsk. unfold dval. rewrite (proj2 (inb_In s (dkeys items)) Hsk). reflexivity.
        + intros Hsk. unfold dval. rewrite (proj2 (inb_false s (dkeys items)) Hsk). reflexivity.
      - unfold dval. rewrite (proj2 (inb_false z (dkeys items)) Hk).
        apply (is_derive_ext (fun t => upd inp p t z)).
        { intros t. symmetry. apply (proj2 (Hsol (upd inp p t))); exact Hk. }
        unfold upd, eqb. destruct (eq_dec z p); [apply (is_derive_id (K:=R_AbsRing))|apply der_const].
    Qed.
    Lemma first_order p inp valJ : In p ps -> solution Ralg J inp valJ -> defs inp ->
      forall z, symbol_of items z -> is_derive (fun t => sol (upd inp p t) z) (inp p) (dval valJ p z).
    Proof.
      intros Hpp HsJ Hdef z Hz. apply (first_order_on (fun _ => True) p inp valJ (fun _ _ _ _ => I) Hpp HsJ (fun k e _ => Hdef k e) z Hz I).
    Qed.
  End J.
End Order1.
