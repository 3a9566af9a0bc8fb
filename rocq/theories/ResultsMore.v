(** * ResultsMore: pickling and comparison of results, examples. *)
From Coq Require Import Reals Lra.
From Verif Require Import PyBase PyFacts Signature SignatureFacts Expr NumPy NumFacts Objective ObjSpec ObjFacts ObjExample Minimizer MinSpec MinFacts Fit FitSpec FitExample Results ResultsSpec ResultsFacts.
Local Open Scope R_scope.
Local Open Scope string_scope.
Local Open Scope list_scope.

(** ** pickling *)
Lemma construct_ok h ps c : exists m l, construct h ps (TMin c) = Ok (FMin m l) /\ mi_class m = c /\ mi_parameters m = ps /\
  (c <> BasinHopping -> l = None) /\ mi_fixed m = filter (fun p => p_fixed (h p)) ps /\ mi_params m = filter (fun p => negb (p_fixed (h p))) ps /\
  mi_jacobian m = None /\ mi_hessian m = None /\ mi_cons m = [] /\ mi_guess m = None.
Proof.
  destruct c; unfold construct, minimizer_init, scipy_constraints; cbn [is_constrained is_gradient is_hessian mapM bind];
    do 2 eexists; (split; [reflexivity|]); repeat split; congruence.
Qed.
Lemma pickle_kind h m : (forall s, In s (sub_minimizers m) -> is_chain s = false) ->
  exists m', setstate h (getstate m) = Ok m' /\ type_of m' = type_of m /\ parameters_of m' = parameters_of m /\
             map type_of (sub_minimizers m') = map type_of (sub_minimizers m).
Proof.
  destruct m as [m l|ps l]; intros H.
  - unfold getstate, setstate. cbn [fst snd type_of parameters_of]. destruct (construct_ok h (mi_parameters m) (mi_class m)) as (m' & l' & He & H1 & H2 & _).
    exists (FMin m' l'). rewrite He. split; [reflexivity|]. simpl. rewrite H1, H2. repeat split.
  - unfold getstate, setstate. cbn [fst snd parameters_of tl]. cbn [sub_minimizers] in H.
    assert (Hm : exists ms, mapM (construct h ps) (map type_of l) = Ok ms /\ map type_of ms = map type_of l).
    { clear -H. induction l as [|m l IH]; [exists []; split; reflexivity|]. destruct IH as (ms & Hms & Ht); [intros s Hs; apply H; right; exact Hs|].
      assert (Hm := H m (or_introl eq_refl)). destruct m as [m lo|]; [|discriminate]. cbn [map type_of mapM].
      destruct (construct_ok h ps (mi_class m)) as (m' & l' & He & H1 & _). rewrite He. cbn [bind]. rewrite Hms. eexists. split; [reflexivity|]. simpl. rewrite H1, Ht. reflexivity. }
    destruct Hm as (ms & Hms & Ht). rewrite Hms. eexists. split; [reflexivity|]. simpl. rewrite Ht. repeat split.
Qed.
Lemma pickle_bare h m lo : exists m' lo', setstate h (getstate (FMin m lo)) = Ok (FMin m' lo') /\
  mi_class m' = mi_class m /\ mi_parameters m' = mi_parameters m /\
  mi_params m' = filter (fun p => negb (p_fixed (h p))) (mi_parameters m) /\
  mi_jacobian m' = None /\ mi_hessian m' = None /\ mi_cons m' = [] /\ mi_guess m' = None.
Proof.
  unfold getstate, setstate. cbn [fst snd type_of parameters_of].
  destruct (construct_ok h (mi_parameters m) (mi_class m)) as (m' & l' & He & H1 & H2 & _ & _ & H3 & H4 & H5 & H6 & H7).
  exists m', l'. split; [exact He|]. split; [exact H1|]. split; [exact H2|]. split; [exact H3|]. split; [exact H4|]. split; [exact H5|]. split; [exact H6|exact H7].
Qed.
Lemma pickle_nested h ps l m : In m l -> is_chain m = true -> setstate h (getstate (FChain ps l)) = Raise TypeError.
Proof.
  intros Hi Hc. unfold getstate, setstate. cbn [fst snd parameters_of tl].
  assert (H : mapM (construct h ps) (map type_of l) = Raise TypeError).
  { induction l as [|s l IH]; [contradiction|]. cbn [map mapM]. destruct s as [m' lo|ps' l'].
    - destruct Hi as [<-|Hi]; [discriminate|]. cbn [type_of]. destruct (construct_ok h ps (mi_class m')) as (m2 & l2 & He & _). rewrite He. cbn [bind]. rewrite (IH Hi). reflexivity.
    - reflexivity. }
  rewrite H. reflexivity.
Qed.
Lemma pickle_same h om cons data c ob cls m : init_class h om cons data c ob cls = Ok m -> is_gradient cls = false -> is_constrained cls = false -> cls <> BasinHopping ->
  setstate h (getstate (FMin m None)) = Ok (FMin m None).
Proof.
  unfold init_class, minimizer_init. intros H Hg Hk Hb. rewrite Hg, Hk in H. cbn [bind] in H. injection H as <-.
  destruct cls; try discriminate; try congruence; reflexivity.
Qed.

(** ** comparison *)
Lemma close_close a b : close a b = true <-> Rabs (a - b) <= / 100000000 + / 100000 * Rabs b.
Proof. unfold close, atol, rtol. destruct (Rle_dec _ _) as [H|H]; split; intros; try congruence; try contradiction; auto. Qed.
Lemma bshape_self s : bshape s s = Some s.
Proof. apply fits_bshape_r. apply fits_refl. Qed.
Lemma Reqb_true x y : Reqb x y = true <-> x = y.
Proof. unfold Reqb. destruct (Req_EM_T x y); split; congruence. Qed.
Definition dict_go (e : list (string * pyval)) : list (string * pyval) -> res bool :=
  fix go (d : list (string * pyval)) : res bool :=
    match d with
    | [] => Ok true
    | (k, v) :: d' => match dget e k with
                      | None => Ok false
                      | Some w => b <- py_eq v w ;; if b then go d' else Ok false
                      end
    end.
Lemma py_eq_dict o d o' e : py_eq (VDict o d) (VDict o' e) =
  if Nat.eqb (List.length d) (List.length e) && (negb (o && o') || eqb (map fst d) (map fst e)) then dict_go e d else Ok false.
Proof. reflexivity. Qed.
Lemma dget_plain (d : list (string * pyval)) k w : (forall k v, In (k, v) d -> plain v) -> dget d k = Some w -> plain w.
Proof. intros H Hg. apply dget_In in Hg. eapply H. exact Hg. Qed.
Lemma indices_one s : List.length (indices s) = 1%nat -> Forall (eq 1%nat) s.
Proof.
  induction s as [|d s IH]; [constructor|]. cbn [indices]. intros H.
  destruct (indices s) as [|o l] eqn:E; [discriminate|]. cbn [flat_map] in H. rewrite app_length, map_length, seq_length in H.
  destruct d as [|d].
  - exfalso. assert (Hz : forall l : list (list nat), flat_map (fun o => map (fun i => i :: o) (seq 0 0)) l = []) by (induction l0; [reflexivity|assumption]). rewrite Hz in H. discriminate.
  - destruct l as [|o' l]; [|exfalso; cbn [flat_map] in H; rewrite app_length, map_length, seq_length in H; lia].
    cbn [flat_map List.length] in H. constructor; [lia|]. apply IH. reflexivity.
Qed.
Lemma ones_indices s : Forall (eq 1%nat) s -> indices s = [repeat 0%nat (List.length s)].
Proof. induction 1 as [|d s <- Hs IH]; [reflexivity|]. cbn [indices]. rewrite IH. reflexivity. Qed.
Lemma ones_bshape s t : Forall (eq 1%nat) s -> Forall (eq 1%nat) t -> exists u, bshape s t = Some u /\ Forall (eq 1%nat) u.
Proof.
  intros Hs. revert t. induction Hs as [|d s Hd Hs IH]; intros t Ht; [exists t; auto|]. destruct t as [|e t]; [exists (d :: s); split; [reflexivity|constructor; assumption]|].
  inversion Ht as [|? ? He Ht']; subst. destruct (IH t Ht') as (u & E & Hu). cbn [bshape]. rewrite E. cbn. eexists. split; [reflexivity|constructor; auto].
Qed.
Lemma ones_bidx s i : Forall (eq 1%nat) s -> bidx s i = repeat 0%nat (List.length s).
Proof. intros Hs. revert i. induction Hs as [|d s <- Hs IH]; intros i; [reflexivity|]. destruct i; cbn [bidx List.length repeat]; rewrite IH; reflexivity. Qed.
Lemma one_elem a i j : Forall (eq 1%nat) (shp a) -> indices (shp a) = [i] -> elem a j = val a i.
Proof. intros H E. unfold elem. rewrite ones_bidx by exact H. rewrite (ones_indices _ H) in E. injection E as <-. reflexivity. Qed.
Lemma array_eq_one a b i j : indices (shp a) = [i] -> indices (shp b) = [j] -> array_eq a b = Ok (Reqb (val a i) (val b j)).
Proof.
  intros Ha Hb. assert (Fa : Forall (eq 1%nat) (shp a)) by (apply indices_one; rewrite Ha; reflexivity). assert (Fb : Forall (eq 1%nat) (shp b)) by (apply indices_one; rewrite Hb; reflexivity).
  unfold array_eq. destruct (ones_bshape _ _ Fa Fb) as (u & -> & Fu). rewrite (ones_indices u Fu). rewrite (one_elem a i _ Fa Ha), (one_elem b j _ Fb Hb). reflexivity.
Qed.
(** a number, or an array of one number *)
Lemma number_plain v r : is_number v r -> plain v.
Proof. intros [->|(a & i & -> & H & _)]; constructor. rewrite H. reflexivity. Qed.
Lemma number_cases v : (exists r, is_number v r) -> forall r r', is_number v r -> is_number v r' -> r = r'.
Proof.
  intros _ r r' [->|(a & i & -> & H & <-)] [E|(a' & i' & E & H' & <-)]; try discriminate.
  - injection E as ->; reflexivity.
  - injection E as <-. rewrite H in H'. injection H' as <-. reflexivity.
Qed.
Lemma number_eq v w r q : is_number v r -> is_number w q -> exists b, py_eq v w = Ok b /\ (b = true <-> same_value v w).
Proof.
  intros Hv Hw. exists (Reqb r q). split.
  - destruct Hv as [->|(a & i & -> & Ha & <-)], Hw as [->|(b & j & -> & Hb & <-)]; cbn [py_eq]; [reflexivity| | |exact (array_eq_one a b i j Ha Hb)].
    + exact (array_eq_one (scalar r) b [] j eq_refl Hb).
    + exact (array_eq_one a (scalar q) i [] Ha eq_refl).
  - rewrite Reqb_true. split; [intros ->; exact (same_num v w q Hv Hw)|]. intros H. destruct H as [|v w r' N1 N2| | |]; try (destruct Hv as [Hv|(? & ? & Hv & _)]; discriminate).
    transitivity r'; [apply (number_cases v); eauto|symmetry; apply (number_cases w); eauto].
Qed.
Lemma one_number a : List.length (indices (shp a)) = 1%nat -> exists r, is_number (VArr a) r.
Proof. intros H. destruct (indices (shp a)) as [|i [|]] eqn:E; try discriminate. exists (val a i). right. eauto. Qed.
Lemma py_eq_plain v : plain v -> forall w, plain w -> exists b, py_eq v w = Ok b /\ (b = true <-> same_value v w).
Proof.
  assert (Hnn : forall v w, (forall r, ~ is_number v r) \/ (forall r, ~ is_number w r) -> py_eq v w = Ok false -> (same_value v w -> exists r, is_number v r /\ is_number w r) ->
    exists b, py_eq v w = Ok b /\ (b = true <-> same_value v w)).
  { intros v' w' Hn E Hs. exists false. split; [exact E|]. split; [discriminate|]. intros H. destruct (Hs H) as (r & H1 & H2). destruct Hn as [Hn|Hn]; exfalso; eapply Hn; eassumption. }
  assert (Hcn : forall a, List.length (indices (shp a)) = 1%nat -> compare_none a = Ok false) by (intros a Ha; unfold compare_none; rewrite Ha; reflexivity).
  induction 1 as [| r | a Ha | s | c t | o d Hd IH Hnd]; intros w Hw; inversion Hw; subst;
    try (apply Hnn; [first [left; intros ? [?|(? & ? & ? & _)]; discriminate|right; intros ? [?|(? & ? & ? & _)]; discriminate]|cbn [py_eq]; first [reflexivity|apply Hcn; assumption]|intros H'; inversion H'; subst; eauto; fail]).
  - exists true. split; [reflexivity|]. split; [constructor|reflexivity].
  - apply (number_eq _ _ r r0); left; reflexivity.
  - match goal with H : List.length (indices (shp ?b)) = 1%nat |- context [VArr ?b] => destruct (one_number b H) as (q & Hq) end. apply (number_eq _ _ r q); [left; reflexivity|exact Hq].
  - destruct (one_number a Ha) as (q & Hq). apply (number_eq _ _ q r); [exact Hq|left; reflexivity].
  - destruct (one_number a Ha) as (q & Hq). match goal with H : List.length (indices (shp ?b)) = 1%nat |- context [py_eq (VArr a) (VArr ?b)] => destruct (one_number b H) as (q' & Hq') end. exact (number_eq _ _ q q' Hq Hq').
  - exists (eqb s s0). split; [reflexivity|]. rewrite eqb_true. split; [intros ->; constructor|intros H; inversion H as [|? ? ? [E|(? & ? & E & _)] _| | |]; subst; [discriminate|discriminate|reflexivity]].
  - eexists. split; [reflexivity|]. rewrite andb_true_iff, !Nat.eqb_eq. split; [intros [-> ->]; constructor|intros H; inversion H as [|? ? ? [E|(? & ? & E & _)] _| | |]; subst; [discriminate|discriminate|auto]].
  - rewrite py_eq_dict. rename d0 into e. rename H into He. rename H0 into Hne. rename o0 into o'.
    destruct (Nat.eqb (List.length d) (List.length e) && (negb (o && o') || eqb (map fst d) (map fst e))) eqn:E.
    + apply andb_prop in E as [E1 E2]. apply Nat.eqb_eq in E1.
      assert (Hord : o = true -> o' = true -> map fst d = map fst e).
      { intros -> ->. simpl in E2. apply (proj1 (eqb_true _ _)) in E2. exact E2. }
      assert (Hgo : forall l, (forall k v, In (k, v) l -> In (k, v) d) -> exists b, dict_go e l = Ok b /\
        (b = true <-> forall k v, In (k, v) l -> In k (map fst e) /\ forall w, dget e k = Some w -> same_value v w)).
      { induction l as [|[k v] l IHl]; intros Hl; [exists true; split; [reflexivity|]; split; [intros _ k v []|reflexivity]|].
        destruct IHl as (b & Hb & Hbt); [intros k' v' H'; apply Hl; right; exact H'|]. cbn [dict_go]. destruct (dget e k) as [w|] eqn:Ek.
        - destruct (IH k v (Hl k v (or_introl eq_refl)) w (dget_plain e k w He Ek)) as (b1 & Hb1 & Hb1t). rewrite Hb1. cbn [bind]. fold (dict_go e l). destruct b1.
          + exists b. split; [exact Hb|]. rewrite Hbt. split.
            * intros H' k' v' [Hq|Hin]; [|apply H'; exact Hin]. inv Hq. split; [eapply dget_Some_key; exact Ek|]. intros w' Hw'. rewrite Ek in Hw'. inv Hw'. apply Hb1t. reflexivity.
            * intros H' k' v' Hin. apply H'. right; exact Hin.
          + exists false. split; [reflexivity|]. split; [discriminate|]. intros H'. apply Hb1t. destruct (H' k v (or_introl eq_refl)) as [_ H2]. apply H2. exact Ek.
        - exists false. split; [reflexivity|]. split; [discriminate|]. intros H'. exfalso. destruct (H' k v (or_introl eq_refl)) as [H1 _]. apply dget_None in Ek. contradiction. }
      destruct (Hgo d (fun k v H => H)) as (b & Hb & Hbt). exists b. split; [exact Hb|]. rewrite Hbt. split.
      * intros H'. apply same_dict; [exact E1|exact Hord|intros k v Hin; apply (H' k v Hin)|]. intros k v w Hin Hw'. destruct (H' k v Hin) as [_ H2]. apply H2. exact Hw'.
      * intros H'. inversion H' as [|? ? ? [Eq|(? & ? & Eq & _)] _| | |]; subst; [discriminate|discriminate|]. intros k v Hin. split; [eauto|]. intros w Hw'. eauto.
    + exists false. split; [reflexivity|]. split; [discriminate|]. intros H'. inversion H' as [|? ? ? [Eq|(? & ? & Eq & _)] _| | |]; subst; [discriminate|discriminate|]. exfalso.
      apply andb_false_iff in E as [E|E]; [apply Nat.eqb_neq in E; congruence|]. apply orb_false_iff in E as [E1 E2]. apply negb_false_iff in E1. apply andb_prop in E1 as [-> ->].
      match goal with H : true = true -> true = true -> map fst d = map fst e |- _ => rewrite (H eq_refl eq_refl), eqb_refl in E2 end. discriminate.
Qed.

Definition safe_go (w : pyval) : list (string * pyval) -> res bool :=
  fix go (d : list (string * pyval)) : res bool :=
    match d with
    | [] => Ok true
    | (k, v) :: d' =>
        if eqb k "minimizer_output" then go d'
        else
        match subscript w k with
        | Raise e => Raise e
        | Ok x =>
            if eqb k "minimizer" then (if Nat.eqb (class_of v) (class_of x) then go d' else Ok false)
            else match py_eq v x with
                 | Ok true => go d'
                 | Ok false => Ok false
                 | Raise ValueError =>
                     match assert_ (match v with VDict _ _ => safe_dict_eq v x | _ => py_allclose v x end) with
                     | Ok _ => go d'
                     | Raise e => Raise e
                     end
                 | Raise e => Raise e
                 end
        end
    end.
Lemma safe_dict o d w : safe_dict_eq (VDict o d) w = safe_go w d.
Proof. reflexivity. Qed.
Lemma array_raises v w a b : arrays v w a b -> py_eq v w = Raise ValueError.
Proof.
  intros (-> & -> & Hs & Hn). simpl. unfold array_eq. rewrite <- Hs, bshape_self. destruct (indices (shp a)) as [|i [|j l]]; simpl in Hn; try lia. reflexivity.
Qed.
Lemma array_close v w a b : arrays v w a b -> (py_allclose v w = Ok true <-> all_close a b) /\ exists c, py_allclose v w = Ok c.
Proof.
  intros (-> & -> & Hs & Hn). unfold py_allclose. cbn [as_array bind]. unfold allclose. rewrite <- Hs, bshape_self. split; [|eexists; reflexivity].
  split.
  - intros H i Hi. injection H as H. rewrite forallb_forall in H. specialize (H i Hi). apply close_close in H. rewrite !elem_val in H; [exact H|rewrite <- Hs; exact Hi|exact Hi].
  - intros H. f_equal. apply forallb_forall. intros i Hi. apply close_close. rewrite !elem_val; [apply H; exact Hi|rewrite <- Hs; exact Hi|exact Hi].
Qed.
Lemma safe_step_agree k v w d o e : dget e k = Some w -> agrees k v w -> safe_go (VDict o e) ((k, v) :: d) = safe_go (VDict o e) d.
Proof.
  intros Hg Ha. cbn [safe_go]. fold (safe_go (VDict o e)). destruct (eqb k "minimizer_output") eqn:E1; [reflexivity|].
  cbn [subscript]. unfold dlook. rewrite Hg. cbn [of_opt].
  destruct Ha as [->|[[-> Hc]|(Hk1 & Hk2 & Ha)]]; [rewrite eqb_refl in E1; discriminate| |].
  - rewrite eqb_refl, Hc, Nat.eqb_refl. reflexivity.
  - destruct (eqb k "minimizer") eqn:E2; [apply (proj1 (eqb_true _ _)) in E2; contradiction|].
    destruct Ha as [(Hp1 & Hp2 & Hs)|(a & b & Hab & Hc)].
    + destruct (py_eq_plain v Hp1 w Hp2) as (b & Hb & Hbt). rewrite Hb. apply Hbt in Hs. rewrite Hs. reflexivity.
    + rewrite (array_raises v w a b Hab). destruct Hab as (-> & Hab). replace (py_allclose (VArr a) w) with (Ok true); [reflexivity|]. symmetry. apply (array_close (VArr a) w a b); [split; [reflexivity|exact Hab]|exact Hc].
Qed.
Lemma safe_agree d o e tail : (forall k v, In (k, v) d -> exists w, dget e k = Some w /\ agrees k v w) ->
  safe_go (VDict o e) (d ++ tail) = safe_go (VDict o e) tail.
Proof.
  induction d as [|[k v] d IH]; intros H; [reflexivity|]. destruct (H k v (or_introl eq_refl)) as (w & Hw & Ha). rewrite <- app_comm_cons. rewrite (safe_step_agree k v w _ o e Hw Ha). apply IH. intros k' v' Hin. apply H. right; exact Hin.
Qed.
Lemma safe_plain_difference k v w d o e : dget e k = Some w -> plain_difference k v w -> safe_go (VDict o e) ((k, v) :: d) = Ok false.
Proof.
  intros Hg Ha. cbn [safe_go]. destruct (eqb k "minimizer_output") eqn:E1.
  { apply (proj1 (eqb_true _ _)) in E1. destruct Ha as [[Hk _]|(_ & Hk & _)]; congruence. }
  cbn [subscript]. unfold dlook. rewrite Hg. cbn [of_opt]. destruct Ha as [[-> Hc]|(Hk1 & Hk2 & Hp1 & Hp2 & Hs)].
  - rewrite eqb_refl. apply Nat.eqb_neq in Hc. rewrite Hc. reflexivity.
  - destruct (eqb k "minimizer") eqn:E2; [apply (proj1 (eqb_true _ _)) in E2; contradiction|].
    destruct (py_eq_plain v Hp1 w Hp2) as (b & Hb & Hbt). rewrite Hb. destruct b; [exfalso; apply Hs; apply Hbt; reflexivity|reflexivity].
Qed.
Lemma safe_array_difference k v w d o e : dget e k = Some w -> array_difference k v w -> safe_go (VDict o e) ((k, v) :: d) = Raise AssertionError.
Proof.
  intros Hg (Hk1 & Hk2 & a & b & Hab & Hc). cbn [safe_go]. destruct (eqb k "minimizer_output") eqn:E1; [apply (proj1 (eqb_true _ _)) in E1; contradiction|].
  cbn [subscript]. unfold dlook. rewrite Hg. cbn [of_opt]. destruct (eqb k "minimizer") eqn:E2; [apply (proj1 (eqb_true _ _)) in E2; contradiction|].
  rewrite (array_raises v w a b Hab). destruct (array_close v w a b Hab) as [H1 (c & H2)]. destruct Hab as (-> & Hab). rewrite H2. destruct c; [exfalso; apply Hc; apply H1; exact H2|reflexivity].
Qed.
(** every difference is decided one way or the other *)
Lemma plain_decides k v w : plain v -> plain w -> agrees k v w \/ plain_difference k v w.
Proof.
  intros Hv Hw. unfold agrees, plain_difference. destruct (string_dec k "minimizer_output") as [->|H1]; [left; left; reflexivity|].
  destruct (string_dec k "minimizer") as [->|H2].
  - destruct (Nat.eq_dec (class_of v) (class_of w)); [left; right; left; auto|right; left; auto].
  - destruct (py_eq_plain v Hv w Hw) as (b & _ & Hb). destruct b.
    + left. right. right. split; [exact H2|]. split; [exact H1|]. left. split; [exact Hv|]. split; [exact Hw|]. apply Hb. reflexivity.
    + right. right. split; [exact H2|]. split; [exact H1|]. split; [exact Hv|]. split; [exact Hw|]. intros H. apply Hb in H. discriminate.
Qed.
Lemma agree_not_differ k v w : agrees k v w -> ~ plain_difference k v w.
Proof.
  intros [->|[[-> Hc]|(H1 & H2 & H3)]] [[Hk Hd]|(H4 & H5 & H6 & H7 & H8)]; try congruence.
  destruct H3 as [(_ & _ & Hs)|(a & b & (-> & _ & _ & Hn) & _)]; [contradiction|inversion H6; lia].
Qed.
Lemma plain_dicts o o' d e : plain (VDict o d) -> plain (VDict o' e) -> (forall k, In k (map fst d) -> In k (map fst e)) ->
  exists b, safe_dict_eq (VDict o d) (VDict o' e) = Ok b /\ (b = true <-> forall k v w, In (k, v) d -> dget e k = Some w -> agrees k v w).
Proof.
  intros Hd He Hk. inversion Hd as [| | | | |o1 d1 Hpd _]; subst. inversion He as [| | | | |o2 e2 Hpe _]; subst. rewrite safe_dict. clear Hd He. revert Hk Hpd.
  induction d as [|[k v] d IH]; intros Hk Hpd; [exists true; split; [reflexivity|]; split; [intros _ k v w []|reflexivity]|].
  destruct IH as (b & Hb & Hbt); [intros k' H; apply Hk; right; exact H|intros k' v' H; apply (Hpd k' v'); right; exact H|].
  assert (Hin : In k (map fst e)) by (apply Hk; left; reflexivity). destruct (dget e k) as [w|] eqn:Ew; [|apply dget_None in Ew; contradiction].
  destruct (plain_decides k v w (Hpd k v (or_introl eq_refl)) (dget_plain e k w Hpe Ew)) as [Ha|Ha].
  - exists b. rewrite (safe_step_agree k v w d o' e Ew Ha). split; [exact Hb|]. rewrite Hbt. split.
    + intros H k' v' w' [Hq|Hin'] Hw'; [|eapply H; eassumption]. inv Hq. rewrite Ew in Hw'. inv Hw'. exact Ha.
    + intros H k' v' w' Hin' Hw'. eapply H; [right; exact Hin'|exact Hw'].
  - exists false. rewrite (safe_plain_difference k v w d o' e Ew Ha). split; [reflexivity|]. split; [discriminate|]. intros H. exfalso. apply (agree_not_differ k v w); [|exact Ha]. eapply H; [left; reflexivity|exact Ew].
Qed.
