(** * FitData: what Fit stores for the data it is given. *)
From Coq Require Import Reals Lra.
From Verif Require Import PyBase PyFacts Signature SignatureFacts Expr NumPy NumFacts Objective Minimizer Fit FitSpec FitFacts.
Local Open Scope R_scope.
Local Open Scope string_scope.
Local Open Scope list_scope.

(** ** the signature *)
Lemma filter_dedup {A} `{EqDec A} (f : A -> bool) l : filter f (dedup l) = dedup (filter f l).
Proof.
  induction l as [|x l IH]; [reflexivity|]. simpl. destruct (f x) eqn:Hf; simpl.
  - f_equal. rewrite <- IH. clear. induction (dedup l) as [|y m IH]; [reflexivity|]. simpl.
    destruct (eqb x y) eqn:E, (f y) eqn:F; simpl; rewrite ?F, ?E; simpl; rewrite ?IH; reflexivity.
  - rewrite <- IH. clear IH. induction (dedup l) as [|y m IHm]; [reflexivity|]. simpl. destruct (eqb x y) eqn:E.
    + apply (proj1 (eqb_true _ _)) in E; subst y. simpl. rewrite Hf. exact IHm.
    + simpl. destruct (f y); [f_equal|]; exact IHm.
Qed.
Lemma dedup_map_inj {A B} `{EqDec A} `{EqDec B} (g : A -> B) l : (forall x y, g x = g y -> x = y) -> dedup (map g l) = map g (dedup l).
Proof.
  intros Hi. induction l as [|x l IH]; [reflexivity|]. simpl. f_equal. rewrite IH. clear IH. induction (dedup l) as [|y m IHm]; [reflexivity|]. simpl.
  destruct (eqb x y) eqn:E.
  - apply (proj1 (eqb_true _ _)) in E; subst. rewrite eqb_refl. simpl. exact IHm.
  - assert (E' : eqb (g x) (g y) = false) by (apply eqb_false; intros Hq; apply Hi in Hq; subst; rewrite eqb_refl in E; discriminate). rewrite E'. simpl. f_equal. exact IHm.
Qed.
Lemma make_parameters_split om na : (forall v, In v (om_indep om) -> ~ In v na) -> 
  forall f, filter f (make_parameters om na) = filter f (map (fun v => (sname v, false)) (om_indep om) ++ map (fun v => (sname v, inb v na)) (om_dep om ++ map sigma_of (om_dep om))).
Proof.
  intros H f. unfold make_parameters, vars_of. rewrite map_app. do 2 f_equal. apply map_ext_in. intros v Hv.
  rewrite (proj2 (inb_false v na)); auto.
Qed.
Lemma NoDup_named {A} (key : A -> string) l : NoDup (map key l) -> NoDup l.
Proof. apply NoDup_map_inv. Qed.
Lemma in_sigmas_dep om v : NoDup (map sname (om_indep om ++ om_dep om ++ map sigma_of (om_dep om))) ->
  In v (om_indep om ++ om_dep om) -> ~ In v (map sigma_of (om_dep om)).
Proof.
  rewrite app_assoc. intros Hn Hv Hs. apply NoDup_named in Hn. apply NoDup_app_split in Hn as (_ & _ & Hn). exact (Hn v Hv Hs).
Qed.
Lemma filter_none {A} (f : A -> bool) l : (forall x, In x l -> f x = false) -> filter f l = [].
Proof. induction l as [|x l IH]; simpl; intros H; [reflexivity|]. rewrite H by auto. apply IH. auto. Qed.

Lemma fit_parameters_names om cons : good_names om cons ->
  fit_parameters om cons =
  map (fun n => (n, false)) (dedup (map sname (om_indep om ++ om_dep om ++ concat (map (fun c => om_indep (fc_om c)) cons)))) ++
  map (fun n => (n, true)) (dedup (map sname (map sigma_of (om_dep om) ++ concat (map (fun c => om_dep (fc_om c) ++ map sigma_of (om_dep (fc_om c))) cons)))).
Proof.
  intros (Hm & Hc & _). unfold fit_parameters.
  rewrite !filter_dedup, !filter_app.
  assert (Hkeep : forall (f : string * bool -> bool) (b : bool) (l : list sym), (forall n, f (n, b) = true) -> filter f (map (fun v => (sname v, b)) l) = map (fun v => (sname v, b)) l).
  { intros f b l H. apply filter_true. intros x Hx. apply in_map_iff in Hx as (v & <- & _). apply H. }
  assert (Hdrop : forall (f : string * bool -> bool) (b : bool) (l : list sym), (forall n, f (n, b) = false) -> filter f (map (fun v => (sname v, b)) l) = []).
  { intros f b l H. apply filter_none. intros x Hx. apply in_map_iff in Hx as (v & <- & _). apply H. }
  assert (Hmod : make_parameters om (map sigma_of (om_dep om)) = map (fun v => (sname v, false)) (om_indep om ++ om_dep om) ++ map (fun v => (sname v, true)) (map sigma_of (om_dep om))).
  { unfold make_parameters, vars_of. rewrite app_assoc, map_app. f_equal.
    - apply map_ext_in. intros v Hv. rewrite (proj2 (inb_false v _)); [reflexivity|]. apply in_sigmas_dep; assumption.
    - apply map_ext_in. intros v Hv. rewrite (proj2 (inb_In v _)); [reflexivity|exact Hv]. }
  assert (Hcon : concat (map (fun c => make_parameters (fc_om c) (om_dep (fc_om c) ++ map sigma_of (om_dep (fc_om c)))) cons) =
                 concat (map (fun c => map (fun v => (sname v, false)) (om_indep (fc_om c)) ++ map (fun v => (sname v, true)) (om_dep (fc_om c) ++ map sigma_of (om_dep (fc_om c)))) cons)).
  { f_equal. apply map_ext_in. intros c Hin. specialize (Hc c Hin). unfold make_parameters, vars_of. rewrite map_app. f_equal.
    - apply map_ext_in. intros v Hv. rewrite (proj2 (inb_false v _)); [reflexivity|]. apply NoDup_named in Hc. apply NoDup_app_split in Hc as (_ & _ & Hc). apply Hc; exact Hv.
    - apply map_ext_in. intros v Hv. rewrite (proj2 (inb_In v _)); [reflexivity|exact Hv]. }
  rewrite Hmod, Hcon.
  assert (Hcf : filter (fun p => negb (snd p)) (concat (map (fun c => map (fun v => (sname v, false)) (om_indep (fc_om c)) ++ map (fun v => (sname v, true)) (om_dep (fc_om c) ++ map sigma_of (om_dep (fc_om c)))) cons)) =
                map (fun v => (sname v, false)) (concat (map (fun c => om_indep (fc_om c)) cons))).
  { clear. induction cons as [|c cons IH]; [reflexivity|]. simpl. rewrite !filter_app, IH, (map_app _ (om_indep (fc_om c))). f_equal.
    rewrite filter_true by (intros x Hx; apply in_map_iff in Hx as (v & <- & _); reflexivity).
    rewrite filter_none by (intros x Hx; apply in_map_iff in Hx as (v & <- & _); reflexivity). apply app_nil_r. }
  assert (Hct : filter snd (concat (map (fun c => map (fun v => (sname v, false)) (om_indep (fc_om c)) ++ map (fun v => (sname v, true)) (om_dep (fc_om c) ++ map sigma_of (om_dep (fc_om c)))) cons)) =
                map (fun v => (sname v, true)) (concat (map (fun c => om_dep (fc_om c) ++ map sigma_of (om_dep (fc_om c))) cons))).
  { clear. induction cons as [|c cons IH]; [reflexivity|]. simpl. rewrite !filter_app, IH, (map_app _ (_ ++ _)).
    rewrite (filter_none snd) by (intros x Hx; apply in_map_iff in Hx as (v & <- & _); reflexivity).
    rewrite filter_true by (intros x Hx; apply in_map_iff in Hx as (v & <- & _); reflexivity). reflexivity. }
  rewrite Hcf, Hct, !filter_app; rewrite (Hkeep (fun p => negb (snd p)) false), (Hdrop (fun p => negb (snd p)) true), (Hkeep snd true), (Hdrop snd false) by reflexivity. rewrite app_nil_r. cbn [app].
  rewrite <- !map_app.
  rewrite <- (map_map sname (fun n => (n, false))), <- (map_map sname (fun n => (n, true))).
  rewrite (dedup_map_inj (fun n : string => (n, false))), (dedup_map_inj (fun n : string => (n, true))) by (intros x y Hq; congruence). rewrite <- app_assoc. reflexivity.
Qed.

Definition sig_of (om : omodel) (cons : list fcon) : signature :=
  map (fun p => {| sp_name := fst p; sp_kwonly := false; sp_default := snd p |}) (fit_parameters om cons).
Lemma sig_names om cons : good_names om cons -> names_of (sig_of om cons) = argument_names om cons.
Proof.
  intros Hg. unfold names_of, sig_of. rewrite fit_parameters_names by exact Hg. unfold argument_names.
  set (a := dedup _). set (b := dedup _). rewrite !map_app, !map_map. cbn [fst snd sp_name]. rewrite !map_id. reflexivity.
Qed.
Lemma sig_positional om cons : positional (sig_of om cons).
Proof. intros p Hp. apply in_map_iff in Hp as (q & <- & _). reflexivity. Qed.
Lemma kinds_ok_pos d l : kinds_ok false d (map (fun n => {| sp_name := n; sp_kwonly := false; sp_default := true |}) l) = true.
Proof. revert d. induction l as [|n l IH]; intros d; [reflexivity|]. simpl. rewrite andb_false_r. apply IH. Qed.
Lemma kinds_ok_req l m : kinds_ok false false (map (fun n => {| sp_name := n; sp_kwonly := false; sp_default := false |}) l ++ m) = kinds_ok false false m.
Proof. induction l as [|n l IH]; [reflexivity|]. simpl. exact IH. Qed.
Lemma fit_signature_ok om cons : good_names om cons -> fit_signature om cons = Ok (sig_of om cons).
Proof.
  intros Hg. unfold fit_signature, mk_signature. fold (sig_of om cons).
  assert (Hk : kinds_ok false false (sig_of om cons) = true).
  { unfold sig_of. rewrite fit_parameters_names by exact Hg. rewrite map_app, !map_map. cbn [fst snd]. rewrite kinds_ok_req. apply kinds_ok_pos. }
  assert (Hn : nodupb (map sp_name (sig_of om cons)) = true).
  { apply nodupb_iff. pose proof (sig_names om cons Hg) as H. unfold names_of in H. rewrite H. apply Hg. }
  rewrite Hk, Hn. reflexivity.
Qed.
Lemma sig_default om cons p : good_names om cons -> In p (sig_of om cons) -> sp_default p = false ->
  In (sp_name p) (map sname (om_indep om ++ om_dep om ++ concat (map (fun c => om_indep (fc_om c)) cons))).
Proof.
  intros Hg Hp Hd. unfold sig_of in Hp. rewrite fit_parameters_names in Hp by exact Hg. rewrite map_app, !map_map in Hp. cbn [fst snd] in Hp.
  apply in_app_or in Hp as [Hp|Hp]; apply in_map_iff in Hp as (n & <- & Hn); cbn in *; [|discriminate]. exact (proj1 (in_dedup n _) Hn).
Qed.
Lemma sig_required om cons n : good_names om cons -> In n (map sname (om_indep om ++ om_dep om ++ concat (map (fun c => om_indep (fc_om c)) cons))) ->
  exists p, In p (sig_of om cons) /\ sp_default p = false /\ sp_name p = n.
Proof.
  intros Hg Hn. exists {| sp_name := n; sp_kwonly := false; sp_default := false |}. split; [|split; reflexivity].
  unfold sig_of. rewrite fit_parameters_names by exact Hg. rewrite map_app, !map_map. cbn [fst snd]. apply in_or_app; left.
  apply in_map_iff. exists n. split; [reflexivity|]. exact (proj2 (in_dedup n _) Hn).
Qed.
Lemma name_in_sig om cons v : In v (vars_of om) -> In (sname v) (argument_names om cons).
Proof.
  unfold vars_of, argument_names. rewrite !in_app_iff, !in_dedup. intros [H|[H|H]].
  - left. apply in_map. apply in_or_app; auto.
  - left. apply in_map. apply in_or_app; right. apply in_or_app; auto.
  - right. apply in_map. apply in_or_app; auto.
Qed.
Lemma con_name_in_sig om cons c v : In c cons -> In v (vars_of (fc_om c)) -> In (sname v) (argument_names om cons).
Proof.
  unfold vars_of, argument_names. rewrite !in_app_iff, !in_dedup. intros Hc H.
  assert (Hcat : forall g : fcon -> list sym, In v (g c) -> In v (concat (map g cons))) by (intros g Hg; apply in_concat; exists (g c); split; [apply in_map; exact Hc|exact Hg]).
  destruct H as [H|H].
  - left. apply in_map. apply in_or_app; right. apply in_or_app; right. apply (Hcat (fun c => om_indep (fc_om c))); exact H.
  - right. apply in_map. apply in_or_app; right. apply (Hcat (fun c => om_dep (fc_om c) ++ map sigma_of (om_dep (fc_om c)))). apply in_or_app; exact H.
Qed.

(** ** keyed by Variable *)
Lemma rekey_get d v k : dget (rekey d v) k =
  match dget d (KStr (sname v)) with
  | Some x => if eq_dec k (KSym v) then Some x else if eq_dec k (KStr (sname v)) then None else dget d k
  | None => dget d k
  end.
Proof. unfold rekey. destruct (dget d (KStr (sname v))); [|reflexivity]. rewrite dget_dset, dget_ddel. reflexivity. Qed.
Lemma rekey_str vs : forall d n, dget (fold_left rekey vs d) (KStr n) = if inb n (map sname vs) then None else dget d (KStr n).
Proof.
  induction vs as [|v vs IH]; intros d n; [reflexivity|]. cbn [fold_left map]. rewrite IH, rekey_get. unfold inb. simpl. fold (inb n (map sname vs)).
  unfold eqb. destruct (inb n (map sname vs)); [rewrite orb_true_r; reflexivity|]. rewrite orb_false_r.
  destruct (dget d (KStr (sname v))) eqn:E.
  - destruct (eq_dec (KStr n) (KSym v)) as [|_]; [discriminate|]. destruct (eq_dec (KStr n) (KStr (sname v))) as [Hq|Hq]; destruct (eq_dec n (sname v)); try congruence.
  - destruct (eq_dec n (sname v)) as [->|]; [exact E|reflexivity].
Qed.
Lemma rekey_sym vs : forall d v, (forall w, In w vs -> sname w = sname v -> w = v) ->
  dget (fold_left rekey vs d) (KSym v) =
  if inb v vs then match dget d (KStr (sname v)) with Some x => Some x | None => dget d (KSym v) end else dget d (KSym v).
Proof.
  induction vs as [|w vs IH]; intros d v Hi; [reflexivity|]. cbn [fold_left]. rewrite IH by (intros u Hu; apply Hi; right; exact Hu).
  rewrite !rekey_get. unfold inb at 2. simpl. fold (inb v vs). unfold eqb.
  destruct (eq_dec v w) as [->|Hne].
  - simpl. destruct (dget d (KStr (sname w))) as [x|] eqn:E; [|destruct (inb w vs); reflexivity].
    destruct (eq_dec (KSym w) (KSym w)) as [_|]; [|congruence]. destruct (eq_dec (KStr (sname w)) (KSym w)) as [|_]; [discriminate|].
    destruct (eq_dec (KStr (sname w)) (KStr (sname w))) as [_|]; [|congruence]. destruct (inb w vs); reflexivity.
  - simpl. assert (Hs : sname v <> sname w) by (intros Hq; apply Hne; symmetry; apply Hi; [left; reflexivity|congruence]).
    destruct (dget d (KStr (sname w))) as [x|] eqn:E; [|reflexivity].
    destruct (eq_dec (KStr (sname v)) (KSym w)) as [|_]; [discriminate|]. destruct (eq_dec (KStr (sname v)) (KStr (sname w))) as [Hq|_]; [congruence|].
    destruct (eq_dec (KSym v) (KSym w)) as [Hq|_]; [congruence|]. destruct (eq_dec (KSym v) (KStr (sname w))) as [|_]; [discriminate|]. reflexivity.
Qed.
(** when the name of [v] is not in the dict as a string, nothing happens to [v] *)
Lemma rekey_keeps vs : forall d v, dget d (KStr (sname v)) = None -> dget (fold_left rekey vs d) (KSym v) = dget d (KSym v).
Proof.
  induction vs as [|w vs IH]; intros d v Hn; [reflexivity|]. cbn [fold_left]. rewrite IH.
  - rewrite rekey_get. destruct (dget d (KStr (sname w))) as [x|] eqn:E; [|reflexivity].
    destruct (eq_dec (KSym v) (KSym w)) as [Hq|_]; [congruence|]. destruct (eq_dec (KSym v) (KStr (sname w))) as [|_]; [discriminate|reflexivity].
  - rewrite rekey_get. destruct (dget d (KStr (sname w))) as [x|] eqn:E; [|exact Hn].
    destruct (eq_dec (KStr (sname v)) (KSym w)) as [|_]; [discriminate|]. destruct (eq_dec (KStr (sname v)) (KStr (sname w))) as [_|_]; [reflexivity|exact Hn].
Qed.

(** ** defaults *)
Lemma defaults_get s : forall (b : dict string datum) n,
  dget (fold_left (fun d p => if dmem d (sp_name p) then d else dset d (sp_name p) DataNone) s b) n =
  match dget b n with Some x => Some x | None => if inb n (names_of s) then Some DataNone else None end.
Proof.
  induction s as [|p s IH]; intros b n; cbn [fold_left].
  - destruct (dget b n); reflexivity.
  - rewrite IH. unfold names_of. cbn [map]. unfold inb at 2. simpl. fold (inb n (map sp_name s)). fold (names_of s). unfold eqb.
    unfold dmem. destruct (dget b (sp_name p)) as [x|] eqn:E.
    + destruct (eq_dec n (sp_name p)) as [->|]; [rewrite E; reflexivity|reflexivity].
    + rewrite dget_dset. destruct (eq_dec n (sp_name p)) as [->|]; [rewrite E; reflexivity|reflexivity].
Qed.

(** ** sigmas *)
Lemma as_given_eq x : to_array x = as_given x.
Proof. reflexivity. Qed.
Lemma spread_ok y s : spreadable y s -> spread_sigma (as_given y) (as_given s) = Ok (expected_sigma y s).
Proof.
  unfold spreadable, spread_sigma, expected_sigma. destruct y as [|ry|a|a], s as [|rs|b|b]; cbn; try reflexivity; try contradiction; try tauto;
    destruct b as [[|n sb] vb]; cbn; intros H; try reflexivity; try (exfalso; apply H; reflexivity); rewrite (H eq_refl); reflexivity.
Qed.
Lemma spread_err y s : ~ spreadable y s -> exists e, spread_sigma (as_given y) (as_given s) = Raise e /\ (e = AttributeError \/ e = ValueError).
Proof.
  unfold spreadable, spread_sigma. destruct y as [|ry|a|a], s as [|rs|b|b]; cbn; intros H; try (exfalso; apply H; exact I); eauto;
    destruct b as [[|n sb] vb]; cbn in *; eauto; try (exfalso; apply H; congruence); try (exfalso; apply H; discriminate).
  all: destruct (shp a) as [|m sa]; [exfalso; apply H; reflexivity|eauto].
Qed.

Definition getx (d : dict kwkey datum) (v : sym) : datum := match dget d (KSym v) with Some x => x | None => DataNone end.
Lemma sigma_loop : forall deps d, 
  NoDup (map sigma_of deps) -> (forall v w, In v deps -> In w deps -> v <> sigma_of w) ->
  (forall v, In v deps -> dget d (KSym v) <> None /\ dget d (KSym (sigma_of v)) <> None) ->
  match foldM sigma_step d (combine deps (map sigma_of deps)) with
  | Ok d' => (forall k, (forall v, In v deps -> k <> KSym (sigma_of v)) -> dget d' k = dget d k) /\
             (forall v, In v deps -> exists s, spread_sigma (getx d v) (getx d (sigma_of v)) = Ok s /\ dget d' (KSym (sigma_of v)) = Some s)
  | Raise e => exists v, In v deps /\ spread_sigma (getx d v) (getx d (sigma_of v)) = Raise e
  end.
Proof.
  induction deps as [|v deps IH]; intros d Hn Hs Hg; cbn [map combine foldM]; [split; [reflexivity|intros ? []]|].
  cbn [map] in Hn. inv Hn. destruct (Hg v (or_introl eq_refl)) as [Hv Hsv].
  unfold sigma_step at 1. cbn [fst snd]. unfold dlook.
  destruct (dget d (KSym v)) as [x|] eqn:Ex; [|congruence]. destruct (dget d (KSym (sigma_of v))) as [s|] eqn:Es; [|congruence]. cbn [of_opt bind].
  assert (Gx : getx d v = x) by (unfold getx; rewrite Ex; reflexivity). assert (Gs : getx d (sigma_of v) = s) by (unfold getx; rewrite Es; reflexivity).
  destruct (spread_sigma x s) as [s'|e] eqn:Esp; cbn [bind].
  2:{ exists v. rewrite Gx, Gs. split; [left; reflexivity|exact Esp]. }
  set (d1 := dset d (KSym (sigma_of v)) s').
  assert (H3 : forall w, In w deps -> getx d1 w = getx d w /\ getx d1 (sigma_of w) = getx d (sigma_of w)).
  { intros w Hw. unfold getx, d1. rewrite !dget_dset.
    destruct (eq_dec (KSym w) (KSym (sigma_of v))) as [Hq|_]; [exfalso; apply (Hs w v); [right; exact Hw|left; reflexivity|congruence]|].
    destruct (eq_dec (KSym (sigma_of w)) (KSym (sigma_of v))) as [Hq|_]; [exfalso; apply H1; apply in_map_iff; exists w; split; [congruence|exact Hw]|]. auto. }
  assert (Hpre : forall w, In w deps -> dget d1 (KSym w) <> None /\ dget d1 (KSym (sigma_of w)) <> None).
    { intros w Hw. destruct (Hg w (or_intror Hw)) as [G1 G2]. unfold d1. rewrite !dget_dset.
      destruct (eq_dec (KSym w) (KSym (sigma_of v))); destruct (eq_dec (KSym (sigma_of w)) (KSym (sigma_of v))); split; try congruence; assumption. }
  specialize (IH d1 H2 (fun a b Ha Hb => Hs a b (or_intror Ha) (or_intror Hb)) Hpre).
  destruct (foldM sigma_step d1 (combine deps (map sigma_of deps))) as [d'|e].
  - destruct IH as [I1 I2].
    split.
    + intros k Hk. rewrite I1 by (intros w Hw; apply Hk; right; exact Hw). unfold d1. rewrite dget_dset. destruct (eq_dec k (KSym (sigma_of v))) as [->|]; [|reflexivity].
      exfalso. apply (Hk v); [left; reflexivity|reflexivity].
    + intros w [<-|Hw].
      * exists s'. split; [rewrite Gx, Gs; exact Esp|]. rewrite I1.
        { unfold d1. apply dget_dset_eq. }
        intros w Hw Hq. apply H1. apply in_map_iff. exists w. split; [congruence|exact Hw].
      * destruct (I2 w Hw) as (s2 & E1 & E2). destruct (H3 w Hw) as [Ha Hb]. rewrite Ha, Hb in E1. exists s2; auto.
  - destruct IH as (w & Hw & He).
    exists w. destruct (H3 w Hw) as [Ha Hb]. rewrite Ha, Hb in He. split; [right; exact Hw|exact He].
Qed.

(** ** TakesData.__init__ *)
Definition valof (b : dict string datum) (n : string) : datum := match dget b n with Some x => x | None => DataNone end.
Definition required_names (om : omodel) (cons : list fcon) : list string :=
  map sname (om_indep om ++ om_dep om ++ concat (map (fun c => om_indep (fc_om c)) cons)).
Lemma sigma_inj_dep om cons : good_names om cons -> NoDup (map sigma_of (om_dep om)) /\ (forall v w, In v (om_dep om) -> In w (om_dep om) -> v <> sigma_of w).
Proof.
  intros (Hm & _). pose proof (NoDup_named _ _ Hm) as Hn. split.
  - apply NoDup_app_split in Hn as (_ & Hn & _). apply NoDup_app_split in Hn as (_ & Hn & _). exact Hn.
  - intros v w Hv Hw Hq. apply (in_sigmas_dep om v Hm); [apply in_or_app; right; exact Hv|]. rewrite Hq. apply in_map; exact Hw.
Qed.
Lemma vars_inj om cons : good_names om cons -> forall v w, In v (vars_of om) -> In w (vars_of om) -> sname w = sname v -> w = v.
Proof.
  intros (Hm & _) v w Hv Hw Hq. unfold vars_of in *. pose proof (NoDup_map_inv_key sname _ Hm) as Hk. apply Hk; assumption.
Qed.
Lemma mapv_get {K X Y} `{EqDec K} (f : X -> Y) (d : dict K X) k : dget (map (fun kv => (fst kv, f (snd kv))) d) k = option_map f (dget d k).
Proof. induction d as [|[a x] d IH]; [reflexivity|]. simpl. destruct (eq_dec k a); [reflexivity|exact IH]. Qed.
Lemma str_get (d : dict string datum) k :
  dget (map (fun kv => (KStr (fst kv), snd kv)) d) k = match k with KStr n => dget d n | KSym _ => None end.
Proof.
  induction d as [|[a x] d IH]; [destruct k; reflexivity|]. simpl. destruct k as [n|v].
  - destruct (eq_dec (KStr n) (KStr a)) as [Hq|Hq]; destruct (eq_dec n a); try congruence. 
  - destruct (eq_dec (KSym v) (KStr a)); [discriminate|exact IH].
Qed.
Lemma bind_error_cases vs : bind_error vs = TypeError \/ (bind_error vs = RuntimeWarning /\ exists v, In v vs /\ is_der v = true).
Proof.
  induction vs as [|v vs IH]; [left; reflexivity|]. simpl. destruct (unnamed v); [left; reflexivity|]. destruct (is_der v) eqn:E; [right; eauto|].
  destruct IH as [IH|(IH & w & Hw & He)]; [left; exact IH|right]. split; [exact IH|]. exists w. auto.
Qed.
Lemma filter_all_eq {A} (f : A -> bool) l : (forall x, In x l -> f x = true) -> filter f l = l.
Proof. apply filter_true. Qed.

Lemma takes_spec om cons absolute b : good_names om cons -> NoDup (dkeys b) -> (forall n, In n (dkeys b) -> In n (argument_names om cons)) ->
  match takes_data om (sig_of om cons) absolute b with
  | Ok t =>
      (forall n, In n (required_names om cons) -> dget b n <> None) /\
      (forall v, In v (om_indep om ++ om_dep om) -> stored (td_data t) v = Some (as_given (valof b (sname v)))) /\
      (forall v, In v (om_dep om) -> spreadable (valof b (sname v)) (valof b (sname (sigma_of v))) /\
         stored (td_data t) (sigma_of v) = Some (expected_sigma (valof b (sname v)) (valof b (sname (sigma_of v))))) /\
      (forall n, dget (td_data t) (KStr n) = if inb n (map sname (vars_of om)) then None
                                             else if inb n (argument_names om cons) then Some (as_given (valof b n)) else None) /\
      td_absolute t = match absolute with
                      | Some a => a
                      | None => existsb (fun v => negb (is_none (valof b (sname (sigma_of v))))) (om_dep om)
                      end
  | Raise e =>
      ((exists n, In n (required_names om cons) /\ dget b n = None) /\
        (e = TypeError \/ (e = RuntimeWarning /\ exists v, In v (vars_of om) /\ is_der v = true))) \/
      ((exists v, In v (om_dep om) /\ ~ spreadable (valof b (sname v)) (valof b (sname (sigma_of v)))) /\ (e = AttributeError \/ e = ValueError))
  end.
Proof.
  intros Hg Hn Hk. pose proof (sig_names om cons Hg) as Hsn. unfold takes_data, takes_data_args, takes_bound.
  pose proof (bind_spec false (sig_of om cons) [] b (sig_positional om cons)) as Hb.
  rewrite Hsn in Hb. assert (Hgn : NoDup (argument_names om cons)) by apply Hg. specialize (Hb Hgn Hn).
  assert (Hgv : forall n, given (argument_names om cons) [] b n = dget b n) by (intros n; unfold given; rewrite combine_nil; reflexivity).
  assert (Hwf : well_formed (argument_names om cons) [] b) by (split; [simpl; lia|]; split; [exact Hn|]; split; [intros n []|exact Hk]).
  unfold sig_bind. destruct (sig_bind_gen false (sig_of om cons) [] b) as [b0|e]; cbn [bind].
  2:{ left. destruct Hb as (_ & Hb). split; [|apply bind_error_cases].
      destruct (existsb (fun n => negb (dmem b n)) (required_names om cons)) eqn:Ex.
      - apply existsb_exists in Ex as (n & Hin & Hm). exists n. split; [exact Hin|]. apply dget_None. apply dmem_false. apply negb_true_iff. exact Hm.
      - exfalso. apply Hb. split; [exact Hwf|]. intros _ p Hp Hd. rewrite Hgv. intros Hq.
        apply Bool.not_true_iff_false in Ex. apply Ex. apply existsb_exists. exists (sp_name p). split; [apply (sig_default om cons p Hg Hp Hd)|].
        unfold dmem. rewrite Hq. reflexivity. }
  destruct Hb as (_ & Hreq & ->).
  assert (Hb0 : forall n, dget (in_order (argument_names om cons) (given (argument_names om cons) [] b)) n = dget b n).
  { intros n. rewrite in_order_get, Hgv. destruct (inb n (argument_names om cons)) eqn:Hi; [reflexivity|]. apply inb_false in Hi.
    symmetry. apply dget_None. intros H. apply Hi. apply Hk. exact H. }
  set (b0 := in_order _ _) in *.
  set (original := fold_left _ (sig_of om cons) b0).
  assert (Ho : forall n, dget original n = if inb n (argument_names om cons) then Some (valof b n) else None).
  { intros n. unfold original. rewrite defaults_get, Hb0, Hsn. unfold valof. destruct (dget b n) as [x|] eqn:E.
    - rewrite (proj2 (inb_In n _)); [reflexivity|]. apply Hk. apply dget_Some_key in E. exact E.
    - reflexivity. }
  set (d0 := map (fun kv => (KStr (fst kv), snd kv)) original).
  set (d1 := fold_left rekey (vars_of om) d0).
  set (d2 := map (fun kv => (fst kv, to_array (snd kv))) d1).
  assert (H2s : forall v, In v (vars_of om) -> dget d2 (KSym v) = Some (as_given (valof b (sname v)))).
  { intros v Hv. unfold d2. rewrite mapv_get. unfold d1. rewrite rekey_sym by (intros w Hw; apply (vars_inj om cons Hg); assumption).
    rewrite (proj2 (inb_In v _) Hv). unfold d0. rewrite !str_get, Ho. rewrite (proj2 (inb_In (sname v) _)) by (apply name_in_sig; exact Hv). reflexivity. }
  assert (H2n : forall n, dget d2 (KStr n) = if inb n (map sname (vars_of om)) then None else if inb n (argument_names om cons) then Some (as_given (valof b n)) else None).
  { intros n. unfold d2. rewrite mapv_get. unfold d1. rewrite rekey_str. unfold d0. rewrite str_get, Ho.
    destruct (inb n (map sname (vars_of om))), (inb n (argument_names om cons)); reflexivity. }
  assert (Hvd : forall v, In v (om_dep om) -> In v (vars_of om) /\ In (sigma_of v) (vars_of om)).
  { intros v Hv. unfold vars_of. rewrite !in_app_iff. split; [auto|]. right; right. apply in_map; exact Hv. }
  rewrite (filter_all_eq (fun v => dmem d2 (KSym v)) (om_dep om)) by (intros v Hv; unfold dmem; rewrite H2s by (apply Hvd; exact Hv); reflexivity).
  rewrite (filter_all_eq (fun v => dmem d2 (KSym v)) (map sigma_of (om_dep om))) by (intros v Hv; apply in_map_iff in Hv as (w & <- & Hw); unfold dmem; rewrite H2s by (apply Hvd; exact Hw); reflexivity).
  destruct (sigma_inj_dep om cons Hg) as [Hs1 Hs2].
  pose proof (sigma_loop (om_dep om) d2 Hs1 Hs2) as Hl.
  assert (Hpre : forall v, In v (om_dep om) -> dget d2 (KSym v) <> None /\ dget d2 (KSym (sigma_of v)) <> None).
  { intros v Hv. destruct (Hvd v Hv) as [G1 G2]. rewrite (H2s _ G1), (H2s _ G2). split; discriminate. }
  specialize (Hl Hpre).
  assert (Hgx : forall v, In v (vars_of om) -> getx d2 v = as_given (valof b (sname v))) by (intros v Hv; unfold getx; rewrite H2s by exact Hv; reflexivity).
  destruct (foldM sigma_step d2 (combine (om_dep om) (map sigma_of (om_dep om)))) as [d3|e]; cbn [bind].
  2:{ right. destruct Hl as (v & Hv & He). destruct (Hvd v Hv) as [G1 G2]. rewrite (Hgx _ G1), (Hgx _ G2) in He.
      assert (Hns : ~ spreadable (valof b (sname v)) (valof b (sname (sigma_of v)))) by (intros Hsp; rewrite (spread_ok _ _ Hsp) in He; discriminate).
      split; [exists v; auto|]. destruct (spread_err _ _ Hns) as (e' & He' & Hcase). rewrite He in He'. inv He'. exact Hcase. }
  destruct Hl as [Hl1 Hl2].
  assert (Habs : match absolute with
                 | Some a => Ok a
                 | None => given0 <- mapM (fun sg => dlook original (sname sg)) (map sigma_of (om_dep om)) ;; Ok (existsb (fun x => negb (is_none x)) given0)
                 end = Ok (match absolute with Some a => a | None => existsb (fun v => negb (is_none (valof b (sname (sigma_of v))))) (om_dep om) end)).
  { destruct absolute as [a|]; [reflexivity|].
    rewrite mapM_map with (g := fun sg => valof b (sname sg)).
    - cbn [bind]. f_equal. rewrite map_map. clear. induction (om_dep om) as [|v l IH]; [reflexivity|]. cbn [map existsb]. rewrite IH. reflexivity.
    - intros sg Hsg. unfold dlook. rewrite Ho. apply in_map_iff in Hsg as (v & <- & Hv).
      rewrite (proj2 (inb_In _ _)); [reflexivity|]. apply name_in_sig. apply Hvd; exact Hv. }
  rewrite Habs. cbn [bind]. cbn [td_data td_absolute].
  split; [|split; [|split; [|split; [|reflexivity]]]].
  - intros n Hin. destruct (sig_required om cons n Hg Hin) as (p & Hp & Hd & <-). specialize (Hreq eq_refl p Hp Hd). rewrite Hgv in Hreq. exact Hreq.
  - intros v Hv. unfold stored. rewrite Hl1.
    + apply H2s. unfold vars_of. rewrite app_assoc. apply in_or_app; left; exact Hv.
    + intros w Hw Hq. inv Hq. apply (in_sigmas_dep om (sigma_of w) (proj1 Hg) Hv). apply in_map; exact Hw.
  - intros v Hv. destruct (Hl2 v Hv) as (s & Hsp & Hst). destruct (Hvd v Hv) as [G1 G2]. rewrite (Hgx _ G1), (Hgx _ G2) in Hsp.
    assert (Hcase : spreadable (valof b (sname v)) (valof b (sname (sigma_of v))) \/ ~ spreadable (valof b (sname v)) (valof b (sname (sigma_of v)))).
    { unfold spreadable. destruct (as_given (valof b (sname v))) as [|r|a|a], (as_given (valof b (sname (sigma_of v)))) as [|r'|b'|b']; auto.
      - destruct (shp b'); [right; intros H; apply H; reflexivity|left; discriminate].
      - destruct (shp b'), (shp a); auto; [right|left]; intros H; [discriminate (H eq_refl)|discriminate]. }
    destruct Hcase as [Hc|Hc].
    + split; [exact Hc|]. unfold stored. rewrite Hst. rewrite (spread_ok _ _ Hc) in Hsp. inv Hsp. reflexivity.
    + exfalso. destruct (spread_err _ _ Hc) as (e & He & _). rewrite He in Hsp. discriminate.
  - intros n. rewrite Hl1 by (intros w Hw Hq; discriminate). apply H2n.
Qed.

(** ** Fit *)
Definition ds_names (om : omodel) : list string := map sname (om_dep om ++ map sigma_of (om_dep om)).
Lemma none_loop : forall vs (b : dict string datum), NoDup (map sname vs) -> NoDup (dkeys b) ->
  match foldM (fun d v => if dmem d (sname v) then Raise TypeError else Ok (dset d (sname v) DataNone)) b vs with
  | Ok b' => (forall v, In v vs -> dget b (sname v) = None) /\ NoDup (dkeys b') /\
             (forall n, dget b' n = if inb n (map sname vs) then Some DataNone else dget b n)
  | Raise e => e = TypeError /\ exists v, In v vs /\ dget b (sname v) <> None
  end.
Proof.
  induction vs as [|v vs IH]; intros b Hn Hb; cbn [foldM]; [split; [intros ? []|]; split; [exact Hb|reflexivity]|].
  cbn [map] in Hn. inv Hn. destruct (dmem b (sname v)) eqn:Hm; cbn [bind].
  { split; [reflexivity|]. exists v. split; [left; reflexivity|]. apply dget_keys. apply dmem_keys. exact Hm. }
  assert (Hv : dget b (sname v) = None) by (apply dget_None; apply dmem_false; exact Hm).
  specialize (IH (dset b (sname v) DataNone) H2 (NoDup_dset _ _ _ Hb)).
  assert (Hne : forall w, In w vs -> dget (dset b (sname v) DataNone) (sname w) = dget b (sname w)).
  { intros w Hw. apply dget_dset_ne. intros Hq. apply H1. rewrite <- Hq. apply in_map; exact Hw. }
  destruct (foldM _ (dset b (sname v) DataNone) vs) as [b'|e].
  - destruct IH as (I1 & I2 & I3). split; [|split; [exact I2|]].
    + intros w [<-|Hw]; [exact Hv|]. rewrite <- Hne by exact Hw. apply I1; exact Hw.
    + intros n. rewrite I3, dget_dset. unfold inb at 2. cbn [map existsb]. fold (inb n (map sname vs)). unfold eqb.
      destruct (eq_dec n (sname v)) as [->|]; simpl; [destruct (inb (sname v) (map sname vs)); reflexivity|reflexivity].
  - destruct IH as (-> & w & Hw & He). split; [reflexivity|]. exists w. rewrite Hne in He by exact Hw. auto using in_cons.
Qed.

Definition has_name (om : omodel) (cons : list fcon) (args : list datum) (kw : dict string datum) (n : string) : option datum :=
  given (argument_names om cons) args kw n.
Definition value_for (om : omodel) (cons : list fcon) args kw n : datum :=
  match has_name om cons args kw n with Some x => x | None => DataNone end.

Section FitData.
  Context (fm : fmodel) (cons : list fcon) (o : ochoice) (m : mchoice) (absolute : option bool) (args : list datum) (kw : dict string datum).
  Let om := fm_om fm.
  Hypothesis Hg : good_names om cons.
  Hypothesis Hkw : NoDup (dkeys kw).
  Let G := given (argument_names om cons) args kw.
  Let b := in_order (argument_names om cons) G.
  Let Gv n := match G n with Some x => x | None => DataNone end.

  Lemma ds_nodup : NoDup (ds_names om).
  Proof using Hg. destruct Hg as (Hm & _). unfold ds_names. rewrite map_app in Hm. apply NoDup_app_split in Hm as (_ & Hm & _). exact Hm. Qed.
  Lemma ds_arg n : In n (ds_names om) -> In n (argument_names om cons).
  Proof using. intros H. apply in_map_iff in H as (v & <- & Hv). apply name_in_sig. unfold vars_of. apply in_or_app; right; exact Hv. Qed.
  Lemma b_nodup : NoDup (dkeys b).
  Proof using Hg. apply in_order_nodup. apply Hg. Qed.
  Lemma b_get n : In n (argument_names om cons) -> dget b n = G n.
  Proof using. intros H. unfold b. rewrite in_order_get, (proj2 (inb_In _ _) H). reflexivity. Qed.
  Lemma b_keys n : In n (dkeys b) -> In n (argument_names om cons).
  Proof using. intros H. apply in_order_keys in H as [H _]. exact H. Qed.

  (** the model's own variables keep their data when constraint variables are keyed *)
  Definition fit_spec_ok (c : oclass) (t : takes) : Prop :=
    well_formed (argument_names om cons) args kw /\ class_of_choice fm o m b = Ok c /\
    (if no_data_objective c then forall n, In n (ds_names om) -> G n = None else True) /\
    (forall n, In n (required_names om cons) -> G n <> None \/ (no_data_objective c = true /\ In n (ds_names om))) /\
    (forall v, In v (om_indep om ++ om_dep om) -> stored (td_data t) v = Some (as_given (Gv (sname v)))) /\
    (forall v, In v (om_dep om) -> spreadable (Gv (sname v)) (Gv (sname (sigma_of v))) /\
       stored (td_data t) (sigma_of v) = Some (expected_sigma (Gv (sname v)) (Gv (sname (sigma_of v))))) /\
    (forall c' v, In c' cons -> In v (om_indep (fc_om c')) -> ~ In (sname v) (map sname (vars_of om)) ->
       (forall c2 w, In c2 cons -> In w (vars_of (fc_om c2)) -> sname w = sname v -> w = v) ->
       dget (td_data t) (KSym v) = Some (as_given (Gv (sname v)))) /\
    td_absolute t = match absolute with
                    | Some a => a
                    | None => existsb (fun v => negb (is_none (Gv (sname (sigma_of v))))) (om_dep om)
                    end.
  Definition fit_spec_err (e : exn) : Prop :=
    (~ well_formed (argument_names om cons) args kw /\ e = TypeError) \/
    (class_of_choice fm o m b = Raise e) \/
    (exists c, class_of_choice fm o m b = Ok c /\
      ((no_data_objective c = true /\ (exists n, In n (ds_names om) /\ G n <> None) /\ e = TypeError) \/
       ((exists n, In n (required_names om cons) /\ G n = None /\ (no_data_objective c = true -> ~ In n (ds_names om))) /\
          (e = TypeError \/ (e = RuntimeWarning /\ exists v, In v (vars_of om) /\ is_der v = true))) \/
       ((exists v, In v (om_dep om) /\ ~ spreadable (Gv (sname v)) (Gv (sname (sigma_of v)))) /\ (e = AttributeError \/ e = ValueError)))).

  Lemma after_takes c b' : class_of_choice fm o m b = Ok c -> NoDup (dkeys b') -> well_formed (argument_names om cons) args kw ->
    (no_data_objective c = true -> forall n, In n (ds_names om) -> G n = None) ->
    (forall n, In n (argument_names om cons) -> dget b' n = if no_data_objective c && inb n (ds_names om) then Some DataNone else G n) ->
    (forall n, In n (dkeys b') -> In n (argument_names om cons)) ->
    match (t <- takes_data om (sig_of om cons) absolute b' ;;
           Ok (c, {| td_data := fold_left rekey (concat (map (fun con => vars_of (fc_om con)) cons)) (td_data t); td_absolute := td_absolute t |})) with
    | Ok (c', t) => c' = c /\ fit_spec_ok c t
    | Raise e => fit_spec_err e
    end.
  Proof using Hg Hkw.
    intros Hc Hn Hwf Hno Hget Hks.
    assert (Hval : forall n, In n (argument_names om cons) -> valof b' n = Gv n).
    { intros n Hin. unfold valof, Gv. rewrite Hget by exact Hin. destruct (no_data_objective c) eqn:E; [|reflexivity]. cbn [andb].
      destruct (inb n (ds_names om)) eqn:Hi; [|reflexivity]. apply inb_In in Hi. rewrite (Hno eq_refl n Hi). reflexivity. }
    assert (Hvar : forall v, In v (vars_of om) -> valof b' (sname v) = Gv (sname v)) by (intros v Hv; apply Hval; apply name_in_sig; exact Hv).
    assert (Hdv : forall v, In v (om_dep om) -> valof b' (sname v) = Gv (sname v) /\ valof b' (sname (sigma_of v)) = Gv (sname (sigma_of v))).
    { intros v Hv. split; apply Hvar; unfold vars_of; rewrite !in_app_iff; [auto|]. right; right. apply in_map; exact Hv. }
    assert (Hreqin : forall n, In n (required_names om cons) -> In n (argument_names om cons)).
    { intros n Hin. unfold argument_names. apply in_or_app; left. exact (proj2 (in_dedup n _) Hin). }
    pose proof (takes_spec om cons absolute b' Hg Hn Hks) as Ht. destruct (takes_data om (sig_of om cons) absolute b') as [t|e]; cbn [bind].
    - split; [reflexivity|]. destruct Ht as (T1 & T2 & T3 & T4 & T5).
      assert (Hkeep : forall v, In v (vars_of om) -> dget (fold_left rekey (concat (map (fun con => vars_of (fc_om con)) cons)) (td_data t)) (KSym v) = dget (td_data t) (KSym v)).
      { intros v Hv. apply rekey_keeps. rewrite T4, (proj2 (inb_In (sname v) _)); [reflexivity|apply in_map; exact Hv]. }
      unfold fit_spec_ok. cbn [td_data td_absolute].
      split; [exact Hwf|]. split; [exact Hc|]. split; [destruct (no_data_objective c); [exact (Hno eq_refl)|exact I]|].
      split; [|split; [|split; [|split]]].
      + intros n Hin. specialize (T1 n Hin). rewrite Hget in T1 by (apply Hreqin; exact Hin). destruct (no_data_objective c); cbn [andb] in T1; [|left; exact T1].
        destruct (inb n (ds_names om)) eqn:Hi; [right; split; [reflexivity|apply inb_In; exact Hi]|left; exact T1].
      + intros v Hv. assert (Hv' : In v (vars_of om)) by (unfold vars_of; rewrite app_assoc; apply in_or_app; left; exact Hv).
        unfold stored. rewrite Hkeep by exact Hv'. specialize (T2 v Hv). unfold stored in T2. rewrite T2, Hvar by exact Hv'. reflexivity.
      + intros v Hv. destruct (T3 v Hv) as [T31 T32]. destruct (Hdv v Hv) as [E1 E2]. rewrite E1, E2 in T31, T32. split; [exact T31|].
        unfold stored in *. rewrite Hkeep; [exact T32|]. unfold vars_of; rewrite !in_app_iff. right; right. apply in_map; exact Hv.
      + intros c' v Hin Hv Hnv Hinj. rewrite rekey_sym.
        * assert (Hvin : In v (vars_of (fc_om c'))) by (unfold vars_of; apply in_or_app; left; exact Hv).
          rewrite (proj2 (inb_In v _)) by (apply in_concat; exists (vars_of (fc_om c')); split; [apply in_map_iff; eauto|exact Hvin]).
          rewrite T4, (proj2 (inb_false _ _) Hnv). pose proof (con_name_in_sig om cons c' v Hin Hvin) as Ha.
          rewrite (proj2 (inb_In _ _) Ha). rewrite (Hval _ Ha). reflexivity.
        * intros w Hw Hq. apply in_concat in Hw as (l & Hl & Hw). apply in_map_iff in Hl as (c2 & <- & Hc2). apply (Hinj c2 w Hc2 Hw Hq).
      + rewrite T5. destruct absolute; [reflexivity|].
        assert (Hex : forall l, (forall v, In v l -> In v (om_dep om)) -> existsb (fun v => negb (is_none (valof b' (sname (sigma_of v))))) l = existsb (fun v => negb (is_none (Gv (sname (sigma_of v))))) l).
        { induction l as [|v l IH]; intros Hl; [reflexivity|]. cbn [existsb]. destruct (Hdv v (Hl v (or_introl eq_refl))) as [_ E]. rewrite E, IH by auto using in_cons. reflexivity. }
        apply Hex. auto.
    - unfold fit_spec_err. right; right. exists c. split; [exact Hc|]. destruct Ht as [((n & Hin & Hgn) & He)|((v & Hv & Hns) & He)].
      + right; left. split; [|exact He]. exists n. split; [exact Hin|]. rewrite Hget in Hgn by (apply Hreqin; exact Hin).
        destruct (no_data_objective c); cbn [andb] in Hgn; [|split; [exact Hgn|discriminate]].
        destruct (inb n (ds_names om)) eqn:Hi; [discriminate|]. apply inb_false in Hi. auto.
      + right; right. split; [|exact He]. exists v. destruct (Hdv v Hv) as [E1 E2]. rewrite E1, E2 in Hns. auto.
  Qed.

  Lemma fit_data_spec :
    match fit_data fm cons o m absolute args kw with
    | Ok (c, t) => fit_spec_ok c t
    | Raise e => fit_spec_err e
    end.
  Proof using Hg Hkw.
    unfold fit_data. fold om. rewrite (fit_signature_ok om cons Hg). cbn [bind].
    pose proof (bind_spec true (sig_of om cons) args kw (sig_positional om cons)) as Hb.
    rewrite (sig_names om cons Hg) in Hb. assert (Hgn : NoDup (argument_names om cons)) by apply Hg. specialize (Hb Hgn Hkw).
    unfold sig_bind_partial. destruct (sig_bind_gen true (sig_of om cons) args kw) as [b0|e]; cbn [bind].
    2:{ destruct Hb as (-> & Hb). left. split; [|reflexivity]. intros Hwf. apply Hb. split; [exact Hwf|discriminate]. }
    destruct Hb as (Hwf & _ & ->). fold G. fold b. unfold determine_objective.
    destruct (class_of_choice fm o m b) as [c|e] eqn:Hc; cbn [bind]; [|right; left; exact Hc]. fold om.
    destruct (no_data_objective c) eqn:Hno.
    - pose proof (none_loop (om_dep om ++ map sigma_of (om_dep om)) b ds_nodup b_nodup) as Hl. fold (ds_names om) in Hl.
      destruct (foldM _ b (om_dep om ++ map sigma_of (om_dep om))) as [b'|e]; cbn [bind].
      + destruct Hl as (L1 & L2 & L3).
        pose proof (after_takes c b' Hc L2 Hwf) as Ha. rewrite Hno in Ha. cbn [andb] in Ha.
        assert (Hres : forall r, match r with Ok (c', t) => c' = c /\ fit_spec_ok c t | Raise e => fit_spec_err e end ->
                                 match r with Ok (c', t) => fit_spec_ok c' t | Raise e => fit_spec_err e end).
        { intros [[c' t]|e]; [intros [-> H]; exact H|auto]. }
        apply Hres. apply Ha.
        * intros _ n Hin. pose proof Hin as Hin0. apply in_map_iff in Hin as (v & <- & Hv). specialize (L1 v Hv). rewrite b_get in L1; [exact L1|]. apply ds_arg; exact Hin0.
        * intros n Hin. rewrite L3. destruct (inb n (ds_names om)); [reflexivity|]. apply b_get; exact Hin.
        * intros n Hin. apply dget_keys in Hin. rewrite L3 in Hin. destruct (inb n (ds_names om)) eqn:Hi; [apply ds_arg; apply inb_In; exact Hi|].
          apply b_keys. apply dget_keys. exact Hin.
      + destruct Hl as (-> & v & Hv & Hd). right; right. exists c. split; [exact Hc|]. left. split; [exact Hno|]. split; [|reflexivity].
        exists (sname v). assert (Hin : In (sname v) (ds_names om)) by (apply in_map; exact Hv). split; [exact Hin|].
        rewrite b_get in Hd by (apply ds_arg; exact Hin). exact Hd.
    - cbn [bind]. pose proof (after_takes c b Hc b_nodup Hwf) as Ha. rewrite Hno in Ha. cbn [andb] in Ha.
      assert (Hres : forall r, match r with Ok (c', t) => c' = c /\ fit_spec_ok c t | Raise e => fit_spec_err e end ->
                               match r with Ok (c', t) => fit_spec_ok c' t | Raise e => fit_spec_err e end).
      { intros [[c' t]|e]; [intros [-> H]; exact H|auto]. }
      apply Hres. apply Ha; [discriminate|exact b_get|exact b_keys].
  Qed.
End FitData.

(** two calls that give every variable the same data *)
Lemma fit_data_split fm cons o m absolute args1 kw1 args2 kw2 : good_names (fm_om fm) cons ->
  well_formed (argument_names (fm_om fm) cons) args1 kw1 -> well_formed (argument_names (fm_om fm) cons) args2 kw2 ->
  (forall n, given (argument_names (fm_om fm) cons) args1 kw1 n = given (argument_names (fm_om fm) cons) args2 kw2 n) ->
  fit_data fm cons o m absolute args1 kw1 = fit_data fm cons o m absolute args2 kw2.
Proof.
  intros Hg H1 H2 He. unfold fit_data. rewrite (fit_signature_ok _ _ Hg). cbn [bind].
  assert (Hb : sig_bind_partial (sig_of (fm_om fm) cons) args1 kw1 = sig_bind_partial (sig_of (fm_om fm) cons) args2 kw2); [|rewrite Hb; reflexivity].
  pose proof (bind_spec true (sig_of (fm_om fm) cons) args1 kw1 (sig_positional _ _)) as B1.
  pose proof (bind_spec true (sig_of (fm_om fm) cons) args2 kw2 (sig_positional _ _)) as B2.
  rewrite (sig_names _ _ Hg) in B1, B2. assert (Hgn : NoDup (argument_names (fm_om fm) cons)) by apply Hg.
  specialize (B1 Hgn (proj1 (proj2 H1))). specialize (B2 Hgn (proj1 (proj2 H2))). unfold sig_bind_partial.
  destruct (sig_bind_gen true _ args1 kw1) as [b1|e1]; [|exfalso; destruct B1 as (_ & B1); apply B1; split; [exact H1|discriminate]].
  destruct (sig_bind_gen true _ args2 kw2) as [b2|e2]; [|exfalso; destruct B2 as (_ & B2); apply B2; split; [exact H2|discriminate]].
  destruct B1 as (_ & _ & ->). destruct B2 as (_ & _ & ->). f_equal. apply in_order_ext. intros n _. apply He.
Qed.
