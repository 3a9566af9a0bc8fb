(** * ArrFacts: a model called on arrays evaluates every point separately. *)
From Coq Require Import Reals Lra Lia.
From Coquelicot Require Import Coquelicot.
From Verif Require Import PyBase PyFacts Toposort ToposortFacts Signature SignatureFacts Expr Model ModelSpec ModelFacts CallFacts InitFacts ConstraintFacts AsConstraint ModelMisc ExprR Jacobian JacFacts JacAnalysis JacSecond JacLemmas Cast NumPy NumFacts Objective ObjSpec ObjFacts ObjLS ArrModel ArrSpec.
Local Open Scope R_scope.

(** ** shapes *)
Lemma bshape_inv s : forall t u, bshape s t = Some u ->
  fits s u = true /\ fits t u = true /\ List.length u = Nat.max (List.length s) (List.length t).
Proof.
  induction s as [|d s IH]; intros t u H.
  - simpl in H. inv H. split; [reflexivity|]. split; [apply fits_refl|]. simpl. reflexivity.
  - destruct t as [|e t].
    + simpl in H. inv H. split; [apply fits_refl|]. split; [reflexivity|]. simpl. reflexivity.
    + simpl in H. destruct (bshape s t) as [w|] eqn:Hw; [|discriminate]. destruct (IH _ _ Hw) as (H1 & H2 & H3).
      destruct (Nat.eqb_spec d e) as [E|E].
      * inv H. rewrite !fits_cons. simpl List.length. rewrite H3. auto.
      * destruct (Nat.eqb_spec d 1) as [E1|E1].
        -- inv H. rewrite !fits_cons. simpl List.length. rewrite H3. auto.
        -- destruct (Nat.eqb_spec e 1) as [E2|E2]; [|discriminate]. inv H. rewrite !fits_cons. simpl List.length. rewrite H3. auto.
Qed.
Lemma nbin_inv f a b c : nbin f a b = Ok c -> bshape (shp a) (shp b) = Some (shp c) /\
  forall i, elem c i = f (elem a i) (elem b i).
Proof.
  unfold nbin. destruct (bshape (shp a) (shp b)) as [u|] eqn:Hu; [|discriminate]. intros H; inv H. split; [reflexivity|].
  destruct (bshape_inv _ _ _ Hu) as (H1 & H2 & _). intros i. unfold elem at 1. cbn [val shp].
  rewrite !elem_bidx by assumption. reflexivity.
Qed.
Lemma fits_lub s t S : fits s S = true -> fits t S = true -> exists u, bshape s t = Some u /\ fits u S = true.
Proof.
  intros H1 H2. destruct (nbin_fits Rplus {| shp := s; val := fun _ => 0 |} {| shp := t; val := fun _ => 0 |} S H1 H2) as (c & Hc & Hf & _).
  exists (shp c). apply nbin_inv in Hc as [Hc _]. auto.
Qed.
Lemma on_grid_nil S : on_grid S [].
Proof. split; [reflexivity|left; reflexivity]. Qed.
Lemma on_grid_lub S s t : on_grid S s -> on_grid S t -> exists u, bshape s t = Some u /\ on_grid S u.
Proof.
  intros [H1 H2] [H3 H4]. destruct (fits_lub s t S H1 H3) as (u & Hu & Hf). exists u. split; [exact Hu|]. split; [exact Hf|].
  destruct (bshape_inv _ _ _ Hu) as (_ & _ & Hl).
  destruct H2 as [-> |H2]; destruct H4 as [-> |H4].
  - left. simpl in Hu. congruence.
  - right. rewrite Hl, H4. simpl. lia.
  - right. rewrite Hl, H2. simpl. lia.
  - right. rewrite Hl, H2, H4. lia.
Qed.

(** ** expressions *)
Section Shapes.
  Context (Q : list nat -> Prop).
  Hypothesis Q0 : Q [].
  Hypothesis Q2 : forall s t, Q s -> Q t -> exists u, bshape s t = Some u /\ Q u.

  Definition pt (valR : list nat -> sym -> R) (r : res nd) (s : sym) : Prop :=
    exists a, r = Ok a /\ Q (shp a) /\ forall i, elem a i = valR i s.
  Lemma nd2_ok f x y a b : x = Ok a -> y = Ok b -> Q (shp a) -> Q (shp b) ->
    exists c, nd2 f x y = Ok c /\ Q (shp c) /\ forall i, elem c i = f (elem a i) (elem b i).
  Proof.
    intros -> -> Ha Hb. unfold nd2. cbn [bind]. destruct (Q2 _ _ Ha Hb) as (u & Hu & Hq).
    assert (Hc : exists c, nbin f a b = Ok c) by (unfold nbin; rewrite Hu; eauto). destruct Hc as (c & Hc). exists c. split; [exact Hc|].
    apply nbin_inv in Hc as [Hs He]. split; [|exact He]. assert (shp c = u) by congruence. subst u. exact Hq.
  Qed.
  Lemma nd_eval val valR e : (forall s, In s (occs e) -> pt valR (val s) s) ->
    exists a, eval NDalg val e = Ok a /\ Q (shp a) /\ forall i, elem a i = eval Ralg (valR i) e.
  Proof.
    induction e as [z|s|a IHa b IHb|a IHa b IHb|a IHa n|a IHa|f a IHa]; simpl; intros H.
    - eexists. split; [reflexivity|]. split; [exact Q0|reflexivity].
    - apply H. left; reflexivity.
    - destruct IHa as (x & Ex & Qx & Px); [intros; apply H, in_or_app; auto|].
      destruct IHb as (y & Ey & Qy & Py); [intros; apply H, in_or_app; auto|].
      destruct (nd2_ok Rplus _ _ x y Ex Ey Qx Qy) as (c & Ec & Qc & Pc). exists c. split; [exact Ec|]. split; [exact Qc|].
      intros i. rewrite Pc, Px, Py. reflexivity.
    - destruct IHa as (x & Ex & Qx & Px); [intros; apply H, in_or_app; auto|].
      destruct IHb as (y & Ey & Qy & Py); [intros; apply H, in_or_app; auto|].
      destruct (nd2_ok Rmult _ _ x y Ex Ey Qx Qy) as (c & Ec & Qc & Pc). exists c. split; [exact Ec|]. split; [exact Qc|].
      intros i. rewrite Pc, Px, Py. reflexivity.
    - destruct IHa as (x & Ex & Qx & Px); [auto|].
      induction n as [|n IHn]; simpl.
      + eexists. split; [reflexivity|]. split; [exact Q0|reflexivity].
      + destruct IHn as (y & Ey & Qy & Py).
        destruct (nd2_ok Rmult _ _ x y Ex Ey Qx Qy) as (c & Ec & Qc & Pc). exists c. split; [exact Ec|]. split; [exact Qc|].
        intros i. rewrite Pc, Px, Py. reflexivity.
    - destruct IHa as (x & Ex & Qx & Px); [auto|]. rewrite Ex. unfold nd1. cbn [bind]. eexists. split; [reflexivity|]. split; [exact Qx|].
      intros i. rewrite elem_npmap, Px. reflexivity.
    - destruct IHa as (x & Ex & Qx & Px); [auto|]. rewrite Ex. unfold nd1. cbn [bind]. eexists. split; [reflexivity|]. split; [exact Qx|].
      intros i. rewrite elem_npmap, Px. reflexivity.
  Qed.
End Shapes.

(** then the result is at least as big as everything that occurs *)
Lemma nd2_grows f x y c : nd2 f x y = Ok c -> exists a b, x = Ok a /\ y = Ok b /\ fits (shp a) (shp c) = true /\ fits (shp b) (shp c) = true.
Proof.
  unfold nd2. intros H. apply bind_Ok in H as (a & -> & H). apply bind_Ok in H as (b & -> & H). exists a, b.
  apply nbin_inv in H as [H _]. apply bshape_inv in H as (H1 & H2 & _). auto.
Qed.
Lemma nd_eval_grows val e : proper_powers e -> forall a, eval NDalg val e = Ok a ->
  forall s, In s (occs e) -> exists b, val s = Ok b /\ fits (shp b) (shp a) = true.
Proof.
  induction e as [z|s0|a IHa b IHb|a IHa b IHb|a IHa n|a IHa|f a IHa]; simpl; intros Hp r Hr s Hs.
  - contradiction.
  - destruct Hs as [-> |[]]. exists r. split; [exact Hr|apply fits_refl].
  - destruct (nd2_grows _ _ _ _ Hr) as (x & y & Hx & Hy & Fx & Fy). destruct Hp as [P1 P2]. apply in_app_iff in Hs as [Hs|Hs].
    + destruct (IHa P1 x Hx s Hs) as (b0 & E & F). exists b0. split; [exact E|eapply fits_trans; eassumption].
    + destruct (IHb P2 y Hy s Hs) as (b0 & E & F). exists b0. split; [exact E|eapply fits_trans; eassumption].
  - destruct (nd2_grows _ _ _ _ Hr) as (x & y & Hx & Hy & Fx & Fy). destruct Hp as [P1 P2]. apply in_app_iff in Hs as [Hs|Hs].
    + destruct (IHa P1 x Hx s Hs) as (b0 & E & F). exists b0. split; [exact E|eapply fits_trans; eassumption].
    + destruct (IHb P2 y Hy s Hs) as (b0 & E & F). exists b0. split; [exact E|eapply fits_trans; eassumption].
  - destruct Hp as [Hn Hp]. destruct n as [|n]; [congruence|]. simpl in Hr.
    destruct (nd2_grows _ _ _ _ Hr) as (x & y & Hx & Hy & Fx & Fy).
    destruct (IHa Hp x Hx s Hs) as (b0 & E & F). exists b0. split; [exact E|eapply fits_trans; eassumption].
  - unfold nd1 in Hr. apply bind_Ok in Hr as (x & Hx & Hr). injection Hr as <-. apply (IHa Hp x Hx s Hs).
  - unfold nd1 in Hr. apply bind_Ok in Hr as (x & Hx & Hr). injection Hr as <-. apply (IHa Hp x Hx s Hs).
Qed.

(** ** systems of equations *)
Lemma model_ind {V} ord (X : dict sym (comp (V:=V))) m : set_order ord -> is_dict X -> no_self_reference X -> init_model ord X = Ok m ->
  forall P : sym -> Prop, (forall x, symbol_of X x -> (forall y, refers X x y -> P y) -> P x) -> forall x, symbol_of X x -> P x.
Proof.
  intros Ho Hd Hself Hi P Hstep x Hx.
  destruct (layers_of_init ord X m Ho Hi) as (l0 & mid & top & Ht & _).
  destruct (toposort_ordered ord m _ Ht) as (syms & Hsyms).
  destruct (ordered_symbols_ok ord m syms Ho (conn_nodup ord X m Hd Hi) Hsyms) as (H1 & H2 & H3).
  assert (Hin : forall s, In s syms <-> symbol_of X s) by (intros s; rewrite H2; apply (node_items ord X m Ho Hi)).
  apply (wo_ind (fun x y => y <> x /\ refers X x y) P syms); [| |apply Hin; exact Hx].
  - intros pr y po Hq z [Hne Hr]. apply (H3 pr y po Hq). split; [|exact Hne]. apply (edge_items ord X m Ho Hi); exact Hr.
  - intros y Hy IH. apply Hstep; [apply Hin; exact Hy|]. intros z Hz. apply IH. split; [|exact Hz]. intros ->. apply (Hself y); exact Hz.
Qed.

Lemma nd_solution (Q : list nat -> Prop) ord (X : dict sym (comp (V:=res nd))) m inp val valR :
  Q [] -> (forall s t, Q s -> Q t -> exists u, bshape s t = Some u /\ Q u) ->
  set_order ord -> is_dict X -> no_self_reference X -> init_model ord X = Ok m ->
  solution NDalg X (fun s => Ok (inp s)) val ->
  (forall i, solution Ralg (icast X) (fun s => elem (inp s) i) (valR i)) ->
  (forall s, symbol_of X s -> ~ In s (dkeys X) -> Q (shp (inp s))) ->
  forall s, symbol_of X s -> pt Q valR (val s) s.
Proof.
  intros Q0 Q2 Ho Hd Hself Hi [S1 S2] SR Hq. apply (model_ind ord X m Ho Hd Hself Hi). intros x Hx IH.
  destruct (in_dec eq_dec x (dkeys X)) as [Hk|Hk].
  - apply in_map_iff in Hk as ([k c] & Hk & Hin). simpl in Hk; subst k.
    destruct (proj1 (init_model_inv _ _ _ Hi) x c Hin) as (e & ->).
    rewrite (S1 x e Hin). destruct (nd_eval Q Q0 Q2 val valR e) as (a & E & Qa & Pa).
    { intros s Hs. apply IH. exists e. split; [exact Hin|left; exact Hs]. }
    exists a. split; [exact E|]. split; [exact Qa|]. intros i. rewrite Pa. symmetry. apply (proj1 (SR i)). apply in_icast; exact Hin.
  - rewrite (S2 x Hk). exists (inp x). split; [reflexivity|]. split; [apply Hq; assumption|].
    intros i. symmetry. apply (proj2 (SR i)). rewrite dkeys_icast. exact Hk.
Qed.

Definition getnd (r : res nd) : nd := match r with Ok a => a | Raise _ => scalar 0 end.
Lemma elem_atleast_1d a i : elem (atleast_1d a) i = elem a i.
Proof. unfold atleast_1d. destruct (shp a) eqn:E; [apply elem_newaxis|reflexivity]. Qed.

(** keyword arguments *)
Definition oks (d : dict string nd) : dict string (res nd) := map (fun kv => (fst kv, Ok (snd kv))) d.
Lemma dkeys_oks d : dkeys (oks d) = dkeys d.
Proof. unfold dkeys, oks. rewrite map_map. reflexivity. Qed.
Lemma dget_oks d n : dget (oks d) n = option_map Ok (dget d n).
Proof. induction d as [|[k a] d IH]; simpl; [reflexivity|]. destruct (eq_dec n k); [reflexivity|exact IH]. Qed.
Lemma oks_named inp L : oks (named inp L) = named (fun s => Ok (inp s)) L.
Proof. unfold oks, named. rewrite map_map. reflexivity. Qed.

Lemma sig_bind_keywords {V} (sg : signature) (d1 d2 : dict string V) : (forall n, dget d1 n = dget d2 n) -> sig_bind sg [] d1 = sig_bind sg [] d2.
Proof.
  intros H. unfold sig_bind, sig_bind_gen. cbn [bind_pos bind].
  assert (Hb : forall ps acc, bind_kw false ps d1 acc = bind_kw false ps d2 acc).
  { induction ps as [|p ps IH]; intros acc; simpl; [reflexivity|]. rewrite H. destruct (dget d2 (sp_name p)); [apply IH|].
    destruct (sp_default p); [apply IH|reflexivity]. }
  rewrite Hb. destruct (bind_kw false sg d2 []) as [b|]; [|reflexivity]. cbn [bind].
  assert (Hf : forallb (fun k => inb k (map sp_name sg)) (dkeys d1) = forallb (fun k => inb k (map sp_name sg)) (dkeys d2)).
  { assert (Hk : forall k, In k (dkeys d1) <-> In k (dkeys d2)) by (intros k; rewrite <- !dget_keys, H; reflexivity).
    apply eq_true_iff_eq. rewrite !forallb_forall. split; intros Hx k Hin; apply Hx, Hk; exact Hin. }
  rewrite Hf. reflexivity.
Qed.
Lemma arr_call_keywords ord m d1 d2 : (forall n, dget d1 n = dget d2 n) -> arr_call ord m d1 = arr_call ord m d2.
Proof.
  intros H. unfold arr_call, call, eval_components. fold (oks d1) (oks d2).
  rewrite (sig_bind_keywords (m_sig m) (oks d1) (oks d2)); [reflexivity|]. intros n. rewrite !dget_oks, H. reflexivity.
Qed.
Lemma arr_jac_keywords simp ord m d1 d2 : (forall n, dget d1 n = dget d2 n) -> arr_jac simp ord m d1 = arr_jac simp ord m d2.
Proof. intros H. unfold arr_jac. destruct (jacobian_model simp ord m) as [jm|]; [|reflexivity]. cbn [bind]. rewrite (arr_call_keywords ord jm d1 d2 H). reflexivity. Qed.
Lemma arr_hess_keywords simp ord m d1 d2 : (forall n, dget d1 n = dget d2 n) -> arr_hess simp ord m d1 = arr_hess simp ord m d2.
Proof. intros H. unfold arr_hess. destruct (hessian_model simp ord m) as [jm|]; [|reflexivity]. cbn [bind]. rewrite (arr_call_keywords ord jm d1 d2 H). reflexivity. Qed.
Lemma om_of_by_keyword cls simp ord m : by_keyword (om_of cls simp ord m).
Proof.
  intros d1 d2 _ _ H. split; [apply arr_call_keywords; exact H|]. split; intros f Hf; destruct cls; simpl in Hf; try discriminate; injection Hf as <-.
  - apply arr_jac_keywords; exact H. - apply arr_jac_keywords; exact H. - apply arr_hess_keywords; exact H.
Qed.
