(** * ArgsPars: parameters(). *)
From Coq Require Import Reals Lra.
From Verif Require Import PyBase PyFacts MinFacts Args ArgsSpec ArgsFacts ArgsMain.
Local Open Scope R_scope.
Local Open Scope string_scope.
Local Open Scope list_scope.

Lemma gt_numbers a b : a <> PNone -> b <> PNone -> exists v, gt a b = Ok v.
Proof. intros Ha Hb. unfold gt. destruct a as [| |[]], b as [| |[]]; try contradiction; simpl; eexists; reflexivity. Qed.

Lemma gt_ordered a b : a <> PNone -> b <> PNone -> ordered a b -> gt a b = Ok false.
Proof.
  intros Ha Hb [H|[H|(x & y & H1 & H2 & H)]]; [contradiction|contradiction|]. unfold gt. rewrite H1, H2. destruct (Rlt_dec y x); [lra|reflexivity].
Qed.

Lemma bounds_bad_total a : exists b, bounds_bad a = Ok b.
Proof.
  unfold bounds_bad. destruct (is_none (a_min a)) eqn:E1; [eexists; reflexivity|]. destruct (is_none (a_max a)) eqn:E2; [eexists; reflexivity|].
  apply gt_numbers; intros H; rewrite H in *; discriminate.
Qed.

Lemma zip_check_ok l : forall m, (forall i u v, nth_error l i = Some u -> nth_error m i = Some v -> u <> PNone /\ v <> PNone /\ ordered u v) -> zip_check l m = Ok tt.
Proof.
  induction l as [|u l IH]; intros [|v m] H; try reflexivity. simpl.
  destruct (H 0%nat u v eq_refl eq_refl) as (H1 & H2 & H3). rewrite (gt_ordered _ _ H1 H2 H3). cbn [bind]. apply IH. intros i. exact (H (S i)).
Qed.
Lemma zip_check_inv l : forall m, zip_check l m = Ok tt -> forall i u v, nth_error l i = Some u -> nth_error m i = Some v -> ~ crossed u v.
Proof.
  induction l as [|u l IH]; intros [|v m] H i u' v' Hu Hv Hc; try (destruct i; discriminate).
  simpl in H. destruct (gt u v) as [[]|e] eqn:E; try discriminate. cbn [bind] in H. destruct i as [|i]; simpl in Hu, Hv.
  - injection Hu as <-. injection Hv as <-. rewrite (gt_crossed _ _ Hc) in E. discriminate.
  - exact (IH m H i u' v' Hu Hv Hc).
Qed.
Lemma zip_check_err l : forall m, numbers l -> numbers m -> zip_check l m = Ok tt \/ zip_check l m = Raise ValueError.
Proof.
  induction l as [|u l IH]; intros [|v m] Hl Hm; simpl; auto.
  destruct (gt_numbers u v) as (b & ->); [apply Hl; left; reflexivity|apply Hm; left; reflexivity|]. cbn [bind]. destruct b; [auto|].
  apply IH; intros x Hx; [apply Hl|apply Hm]; right; exact Hx.
Qed.

Lemma check_bounds_same a b p : check_bounds a b = Ok p ->
  (forall l, a <> Iterator l) -> (forall l, b <> Iterator l) -> p = (a, b).
Proof.
  intros H Ha Hb. unfold check_bounds in H.
  assert (Ca : forall n, consumed n a = a) by (intros n; destruct a; try reflexivity; contradiction (Ha l eq_refl)).
  assert (Cb : forall n, consumed n b = b) by (intros n; destruct b; try reflexivity; contradiction (Hb l eq_refl)).
  destruct (contents a) as [l [u|]], (contents b) as [m [v|]].
  - destruct (gt u v) as [[]|]; discriminate.
  - destruct (zip_check _ _) as [[]|]; [|discriminate]. cbn [bind] in H. injection H as <-. rewrite Cb. reflexivity.
  - destruct (zip_check _ _) as [[]|]; [|discriminate]. cbn [bind] in H. injection H as <-. rewrite Ca. reflexivity.
  - destruct (zip_check _ _) as [[]|]; [|discriminate]. cbn [bind] in H. injection H as <-. rewrite Ca, Cb. reflexivity.
Qed.

(** The kind of an argument survives the check. *)
Lemma check_bounds_sized a b p l : check_bounds a b = Ok p -> (a = Sized l -> fst p = Sized l) /\ (b = Sized l -> snd p = Sized l).
Proof.
  intros H. unfold check_bounds in H. destruct (contents a) as [l1 [u|]], (contents b) as [m [v|]].
  - destruct (gt u v) as [[]|]; discriminate.
  - destruct (zip_check _ _) as [[]|]; [|discriminate]. cbn [bind] in H. injection H as <-. split; intros ->; reflexivity.
  - destruct (zip_check _ _) as [[]|]; [|discriminate]. cbn [bind] in H. injection H as <-. split; intros ->; reflexivity.
  - destruct (zip_check _ _) as [[]|]; [|discriminate]. cbn [bind] in H. injection H as <-. split; intros ->; reflexivity.
Qed.

Lemma apply_seqs_inv seqs : forall w os w', apply_seqs w os seqs = (w', Ok tt) -> forall k l, In (k, Sized l) seqs -> List.length l = List.length os.
Proof.
  induction seqs as [|[k v] seqs IH]; intros w os w' H k' l Hin; [destruct Hin|]. simpl in H.
  destruct (apply_seq w os k v) as [w1 [[]|e]] eqn:E; [|discriminate]. destruct Hin as [He|Hin].
  - injection He as -> ->. simpl in E. destruct (Nat.eqb_spec (List.length l) (List.length os)) as [Hl|]; [exact Hl|discriminate].
  - exact (IH w1 os w' H k' l Hin).
Qed.
Lemma apply_seqs_err seqs : forall w os, snd (apply_seqs w os seqs) = Ok tt \/ snd (apply_seqs w os seqs) = Raise ValueError.
Proof.
  induction seqs as [|[k v] seqs IH]; intros w os; simpl; [auto|].
  destruct (apply_seq w os k v) as [w1 [[]|e]] eqn:E; [apply IH|]. right. simpl. f_equal.
  destruct v; simpl in E; try discriminate. destruct (Nat.eqb _ _); [discriminate|]. congruence.
Qed.
Lemma make_all_length names : forall w a hit w' os, make_all w names a hit = (w', Ok os) -> List.length os = List.length names.
Proof.
  induction names as [|n names IH]; intros w a hit w' os H; simpl in H; [injection H as _ <-; reflexivity|].
  destruct (create w CParameter (Some n) a (hit n)) as [w1 [o|e]]; [|discriminate]. destruct (make_all w1 names a hit) as [w2 [os2|e]] eqn:E2; [|discriminate].
  injection H as _ <-. simpl. rewrite (IH _ _ _ _ _ E2). reflexivity.
Qed.
Lemma make_all_err names : forall w a hit, Inv w -> ~ In "" names -> (exists os, snd (make_all w names a hit) = Ok os) \/ snd (make_all w names a hit) = Raise ValueError.
Proof.
  induction names as [|n names IH]; intros w a hit HI Hne; simpl; [left; eexists; reflexivity|].
  assert (Hn : Some n <> Some "") by (intros [= ->]; apply Hne; left; reflexivity).
  destruct (create w CParameter (Some n) a (hit n)) as [w1 r] eqn:E.
  destruct (create_spec _ _ _ _ _ _ _ HI Hn E) as (HI1 & _ & o & b & _ & _ & _ & _ & Hr). simpl in Hr. destruct Hr as [_ ->].
  unfold init_effect. destruct (bounds_bad_total a) as (bb & ->). destruct bb; simpl.
  - destruct (truthy (a_fixed a)); [|right; reflexivity].
    destruct (IH w1 a hit HI1 ltac:(intros H; apply Hne; right; exact H)) as [(os & Ho)|Ho]; destruct (make_all w1 names a hit) as [w2 [os2|e]]; simpl in *; try discriminate; [left; eexists; reflexivity|right; congruence].
  - destruct (IH w1 a hit HI1 ltac:(intros H; apply Hne; right; exact H)) as [(os & Ho)|Ho]; destruct (make_all w1 names a hit) as [w2 [os2|e]]; simpl in *; try discriminate; [left; eexists; reflexivity|right; congruence].
Qed.
Lemma make_all_crossed names w a hit : Inv w -> ~ In "" names -> names <> [] -> crossed (a_min a) (a_max a) -> truthy (a_fixed a) = false ->
  snd (make_all w names a hit) = Raise ValueError.
Proof.
  intros HI Hne Hn Hc Hf. destruct names as [|n names]; [contradiction Hn; reflexivity|]. simpl.
  assert (Hn1 : Some n <> Some "") by (intros [= ->]; apply Hne; left; reflexivity).
  pose proof (create_rejects w CParameter (Some n) a (hit n) HI Hn1 eq_refl Hc Hf) as Hr. destruct (create w CParameter (Some n) a (hit n)) as [w1 r]. simpl in Hr. subst r. reflexivity.
Qed.

Definition all_seqs (kw : kwargs) (smin smax : option kwarg) : list (slot * kwarg) :=
  entry Value (is_seq (kw Value)) ++ entry Min smin ++ entry Max smax ++ entry Fixed (is_seq (kw Fixed)).
Definition scalars (kw : kwargs) : pargs :=
  {| a_value := scalar_or (PNum 1) (kw Value); a_min := scalar_or PNone (kw Min);
     a_max := scalar_or PNone (kw Max); a_fixed := scalar_or (PBool false) (kw Fixed) |}.
Definition the_check (kw : kwargs) : res (option kwarg * option kwarg) :=
  match is_seq (kw Min), is_seq (kw Max) with
  | Some a, Some b => p <- check_bounds a b ;; Ok (Some (fst p), Some (snd p))
  | _, _ => Ok (is_seq (kw Min), is_seq (kw Max))
  end.

Lemma parameters_eq w names kw hit :
  parameters w names kw hit =
  match the_check kw with
  | Raise e => (w, Raise e)
  | Ok (smin, smax) =>
      match make_all w names (scalars kw) hit with
      | (w1, Raise e) => (w1, Raise e)
      | (w1, Ok os) =>
          match apply_seqs w1 os (all_seqs kw smin smax) with
          | (w2, Ok _) => (w2, Ok os)
          | (w2, Raise e) => (w2, Raise e)
          end
      end
  end.
Proof. reflexivity. Qed.

Lemma is_seq_some o v : is_seq o = Some v <-> o = Some v /\ seq_arg v.
Proof.
  destruct o as [[x|l|l|x]|]; simpl; (split; [intros H; try discriminate; injection H as <-; simpl; auto|intros [H Hs]; try discriminate; injection H as <-; simpl in Hs; tauto]).
Qed.

Lemma in_all_seqs kw smin smax k v : In (k, v) (all_seqs kw smin smax) <->
  match k with Value => is_seq (kw Value) | Min => smin | Max => smax | Fixed => is_seq (kw Fixed) end = Some v.
Proof.
  unfold all_seqs. rewrite !in_app_iff. unfold entry. split.
  - assert (He : forall k' o, In (k, v) (match o with Some v0 => [(k', v0)] | None => [] end : list (slot * kwarg)) -> k = k' /\ o = Some v).
    { intros k' [x|] H; [|destruct H]. destruct H as [H|[]]. injection H as -> ->. auto. }
    intros [H|[H|[H|H]]]; apply He in H as [-> ->]; reflexivity.
  - destruct k; intros ->; [left|right; left|right; right; left|right; right; right]; left; reflexivity.
Qed.
Lemma all_seqs_nodup kw smin smax : NoDup (map fst (all_seqs kw smin smax)).
Proof.
  unfold all_seqs, entry.
  destruct (is_seq (kw Value)), smin, smax, (is_seq (kw Fixed)); simpl; repeat (constructor; [simpl; intuition discriminate|]); constructor.
Qed.

(** The check passes and hands on the sequences unread. *)
Lemma the_check_ok kw n : (0 < n)%nat -> lengths_ok kw n -> comparable kw -> no_oneshot_bounds kw ->
  (forall i, (i < n)%nat -> exists mn mx, requested kw Min i = Some mn /\ requested kw Max i = Some mx /\ ordered mn mx) ->
  the_check kw = Ok (is_seq (kw Min), is_seq (kw Max)).
Proof.
  intros Hn Hl Hc Hi Hr. unfold the_check. unfold comparable in Hc.
  pose proof (Hl Min) as Lm. pose proof (Hl Max) as Lx.
  assert (Hord : forall i u v, requested kw Min i = Some u -> requested kw Max i = Some v -> (i < n)%nat -> ordered u v).
  { intros i u v Hu Hv Hlt. destruct (Hr i Hlt) as (mn & mx & E1 & E2 & Ho). congruence. }
  unfold requested in Hord.
  destruct (kw Min) as [[x|l|l|x]|] eqn:Emin; try reflexivity; destruct (kw Max) as [[y|m|m|y]|] eqn:Emax; try reflexivity; simpl in *; try contradiction; unfold check_bounds; cbn [contents].
  - destruct Hc as (H1 & H2 & _). rewrite zip_check_ok; [reflexivity|]. intros i u v Hu Hv.
    split; [apply H1; apply (nth_error_In _ _ Hu)|]. split; [apply H2; apply (nth_error_In _ _ Hv)|]. apply (Hord i); auto. assert (i < List.length l)%nat by (apply nth_error_Some; congruence). lia.
  - destruct (Hi m) as [_ H]. specialize (H Emax). rewrite Emin in H. destruct H.
  - destruct Hc as (H1 & _ & _ & H4). rewrite zip_check_ok; [reflexivity|]. intros i u v Hu Hv.
    split; [apply H1; apply (nth_error_In _ _ Hu)|]. apply nth_error_In in Hv as Hv'. apply in_map_iff in Hv' as (z & <- & _). split; [congruence|]. apply (Hord i); auto. assert (i < List.length l)%nat by (apply nth_error_Some; congruence). lia.
  - destruct (Hi l) as [H _]. specialize (H Emin). rewrite Emax in H. destruct H.
  - destruct (Hi l) as [H _]. specialize (H Emin). rewrite Emax in H. destruct H.
  - destruct (Hi l) as [H _]. specialize (H Emin). rewrite Emax in H. destruct H.
  - destruct Hc as (_ & H2 & H3 & _). rewrite zip_check_ok; [reflexivity|]. intros i u v Hu Hv.
    apply nth_error_In in Hu as Hu'. apply in_map_iff in Hu' as (z & <- & _). split; [congruence|]. split; [apply H2; apply (nth_error_In _ _ Hv)|]. apply (Hord i); auto. assert (i < List.length m)%nat by (apply nth_error_Some; congruence). lia.
  - destruct (Hi m) as [_ H]. specialize (H Emax). rewrite Emin in H. destruct H.
Qed.

Lemma nth_repeat_lt {A} (x : A) n i : (i < n)%nat -> nth_error (repeat x n) i = Some x.
Proof. revert i; induction n as [|n IH]; intros [|i] H; simpl; try lia; [reflexivity|]. apply IH. lia. Qed.

Theorem parameters_spec w names kw hit : Inv w -> NoDup names -> ~ In "" names -> names <> [] ->
  lengths_ok kw (List.length names) -> comparable kw -> no_oneshot_bounds kw ->
  (forall i, (i < List.length names)%nat -> exists mn mx, requested kw Min i = Some mn /\ requested kw Max i = Some mx /\ ordered mn mx) ->
  exists w' os, parameters w names kw hit = (w', Ok os) /\ List.length os = List.length names /\ NoDup os /\
    (forall i o n, nth_error os i = Some o -> nth_error names i = Some n ->
       exists va mn mx fx, requested kw Value i = Some va /\ requested kw Min i = Some mn /\ requested kw Max i = Some mx /\ requested kw Fixed i = Some fx /\
         is_parameter w' o n va mn mx fx) /\
    (forall o, ~ In o os -> obj w' o = obj w o).
Proof.
  intros HI Hnd Hne Hnn Hl Hc Hi Hr. rewrite parameters_eq.
  assert (Hpos : (0 < List.length names)%nat) by (destruct names; [contradiction Hnn; reflexivity|simpl; lia]).
  rewrite (the_check_ok kw _ Hpos Hl Hc Hi Hr).
  assert (Ho : ordered (a_min (scalars kw)) (a_max (scalars kw))).
  { destruct (Hr 0%nat Hpos) as (mn & mx & E1 & E2 & Ho). unfold scalars, requested in *; simpl in *.
    destruct (kw Min) as [[]|]; simpl; try (left; reflexivity); destruct (kw Max) as [[]|]; simpl; try (right; left; reflexivity). congruence. }
  destruct (make_all_spec names w (scalars kw) hit HI Hnd Hne Ho) as (w1 & os & E1 & Hlen & HI1 & Hndo & P1 & F1). rewrite E1.
  assert (Hex : forall o, In o os -> exists x, obj w1 o = Some x).
  { intros o Hin. apply In_nth_error in Hin as (i & Hio). destruct (nth_error names i) as [n|] eqn:En.
    - destruct (P1 i o n Hio En) as [(x & Hx & _) _]. exists x; exact Hx.
    - apply nth_error_None in En. assert (i < List.length os)%nat by (apply nth_error_Some; congruence). lia. }
  assert (Hsq : forall k v, In (k, v) (all_seqs kw (is_seq (kw Min)) (is_seq (kw Max))) -> is_seq (kw k) = Some v).
  { intros k v Hin. apply in_all_seqs in Hin. destruct k; exact Hin. }
  destruct (apply_seqs_spec (all_seqs kw (is_seq (kw Min)) (is_seq (kw Max))) w1 os Hndo HI1 (all_seqs_nodup _ _ _)) as (w2 & E2 & HI2 & F2 & P2).
  - intros k v Hin. apply Hsq in Hin. apply is_seq_some in Hin as [Hk Hs]. split; [exact Hs|]. specialize (Hl k). rewrite Hk in Hl. destruct v; try reflexivity. simpl. apply Nat.eqb_eq. congruence.
  - exact Hex.
  - rewrite E2. exists w2, os. split; [reflexivity|]. split; [exact Hlen|]. split; [exact Hndo|]. split.
    + intros i o n Hio Hin. destruct (P1 i o n Hio Hin) as [(x & Hx & Hcp & Hnx & V1 & V2 & V3 & V4) _].
      destruct (P2 i o x Hio Hx) as (x2 & Hx2 & N2 & C2 & Hset & Hkeep).
      assert (Hlt : (i < List.length os)%nat) by (apply nth_error_Some; congruence).
      assert (Hk : forall k, exists v, requested kw k i = Some v /\ getattr k x2 = Some v).
      { intros k. unfold requested. destruct (kw k) as [v|] eqn:Ek.
        - destruct v as [v|l|l|v].
          + exists v. split; [reflexivity|]. rewrite Hkeep.
            * destruct k; simpl; rewrite ?V1, ?V2, ?V3, ?V4; unfold scalars; simpl; rewrite Ek; reflexivity.
            * intros v' u Hin' _. apply Hsq in Hin'. rewrite Ek in Hin'. discriminate.
          + specialize (Hl k) as Hlk. rewrite Ek in Hlk. destruct (nth_error l i) as [u|] eqn:Eu; [|apply nth_error_None in Eu; lia].
            exists u. split; [reflexivity|]. apply (Hset k (Sized l) u); [|exact Eu]. apply in_all_seqs. destruct k; rewrite Ek; reflexivity.
          + specialize (Hl k) as Hlk. rewrite Ek in Hlk. destruct (nth_error l i) as [u|] eqn:Eu; [|apply nth_error_None in Eu; lia].
            exists u. split; [reflexivity|]. apply (Hset k (Iterator l) u); [|exact Eu]. apply in_all_seqs. destruct k; rewrite Ek; reflexivity.
          + exists v. split; [reflexivity|]. apply (Hset k (Endless v) v); [|simpl; apply nth_repeat_lt; exact Hlt]. apply in_all_seqs. destruct k; rewrite Ek; reflexivity.
        - exists (default k). split; [reflexivity|]. rewrite Hkeep.
          * destruct k; simpl; rewrite ?V1, ?V2, ?V3, ?V4; unfold scalars; simpl; rewrite Ek; reflexivity.
          * intros v' u Hin' _. apply Hsq in Hin'. rewrite Ek in Hin'. discriminate. }
      destruct (Hk Value) as (va & R1 & G1). destruct (Hk Min) as (mn & R2 & G2). destruct (Hk Max) as (mx & R3 & G3). destruct (Hk Fixed) as (fx & R4 & G4).
      exists va, mn, mx, fx. repeat (split; [assumption|]). exists x2. split; [exact Hx2|]. split; [congruence|]. split; [congruence|]. auto.
    + intros o Ho'. rewrite F2 by exact Ho'. apply F1. exact Ho'.
Qed.

(** What a call that returns has checked. *)
Theorem parameters_checked w names kw hit w' os : Inv w -> ~ In "" names -> names <> [] ->
  parameters w names kw hit = (w', Ok os) ->
  List.length os = List.length names /\
  (forall k l, kw k = Some (Sized l) -> List.length l = List.length names) /\
  (forall mn mx, kw Min = Some (Scalar mn) -> kw Max = Some (Scalar mx) -> crossed mn mx -> exists f, kw Fixed = Some (Scalar f) /\ truthy f = true) /\
  (forall l m i u v, kw Min = Some (Sized l) -> kw Max = Some (Sized m) -> nth_error l i = Some u -> nth_error m i = Some v -> ~ crossed u v).
Proof.
  intros HI Hne Hnn. rewrite parameters_eq. destruct (the_check kw) as [[smin smax]|e] eqn:Ec; [|discriminate].
  destruct (make_all w names (scalars kw) hit) as [w1 [os1|e]] eqn:Em; [|discriminate].
  destruct (apply_seqs w1 os1 (all_seqs kw smin smax)) as [w2 [[]|e]] eqn:Es; [|discriminate]. intros H. injection H as _ <-.
  pose proof (make_all_length _ _ _ _ _ _ Em) as Hlen. split; [exact Hlen|]. split; [|split].
  - intros k l Hk. rewrite <- Hlen. apply (apply_seqs_inv _ _ _ _ Es k l). apply in_all_seqs.
    unfold the_check in Ec. destruct k; try (rewrite Hk; reflexivity).
    + rewrite Hk in Ec. simpl in Ec. destruct (is_seq (kw Max)) as [b|].
      * destruct (check_bounds (Sized l) b) as [p|] eqn:Eb; [|discriminate]. cbn [bind] in Ec. injection Ec as <- _. destruct (check_bounds_sized _ _ _ l Eb) as [H _]. rewrite (H eq_refl). reflexivity.
      * injection Ec as <- _. reflexivity.
    + rewrite Hk in Ec. simpl in Ec. destruct (is_seq (kw Min)) as [a|].
      * destruct (check_bounds a (Sized l)) as [p|] eqn:Eb; [|discriminate]. cbn [bind] in Ec. injection Ec as _ <-. destruct (check_bounds_sized _ _ _ l Eb) as [_ H]. rewrite (H eq_refl). reflexivity.
      * injection Ec as _ <-. reflexivity.
  - intros mn mx Hmn Hmx Hc. destruct (truthy (a_fixed (scalars kw))) eqn:Ef.
    + unfold scalars in Ef; simpl in Ef. destruct (kw Fixed) as [[f| | |]|]; simpl in Ef; try discriminate. exists f; auto.
    + pose proof (make_all_crossed names w (scalars kw) hit HI Hne Hnn) as Hx. rewrite Em in Hx. unfold scalars in Hx at 1 2; simpl in Hx. rewrite Hmn, Hmx in Hx. specialize (Hx Hc Ef). discriminate.
  - intros l m i u v Hmn Hmx Hu Hv. unfold the_check in Ec. rewrite Hmn, Hmx in Ec. simpl in Ec. unfold check_bounds in Ec; cbn [contents] in Ec. destruct (zip_check l m) as [[]|] eqn:Ez; [|discriminate].
    exact (zip_check_inv _ _ Ez i u v Hu Hv).
Qed.

(** The only exception is ValueError, unless None is compared with a number or two endless iterators are given. *)
Theorem parameters_errors w names kw hit : Inv w -> ~ In "" names -> comparable kw ->
  (exists os, snd (parameters w names kw hit) = Ok os) \/ snd (parameters w names kw hit) = Raise ValueError.
Proof.
  intros HI Hne Hc. rewrite parameters_eq.
  assert (Hk : (exists p, the_check kw = Ok p) \/ the_check kw = Raise ValueError).
  { unfold the_check. unfold comparable in Hc. destruct (kw Min) as [[x|l|l|x]|] eqn:Emin; simpl; try (left; eexists; reflexivity); destruct (kw Max) as [[y|m|m|y]|] eqn:Emax; simpl; try (left; eexists; reflexivity); simpl in Hc; try contradiction; unfold check_bounds; cbn [contents];
      destruct Hc as (H1 & H2 & H3 & H4);
      match goal with |- context [zip_check ?a ?b] => destruct (zip_check_err a b) as [Hz0 | Hz0]; rewrite ?Hz0 end; auto;
      try (left; eexists; reflexivity);
      intros z Hz; apply in_map_iff in Hz as (? & <- & _); congruence. }
  destruct Hk as [([smin smax] & Hq) | Hq]; rewrite Hq; [|right; reflexivity].
  destruct (make_all_err names w (scalars kw) hit HI Hne) as [(os & Ho)|Ho]; destruct (make_all w names (scalars kw) hit) as [w1 [os1|e]]; simpl in Ho; try discriminate; [|right; simpl; exact Ho].
  destruct (apply_seqs_err (all_seqs kw smin smax) w1 os1) as [H|H]; destruct (apply_seqs w1 os1 (all_seqs kw smin smax)) as [w2 [[]|e]]; simpl in H; try discriminate; simpl; [left; eexists; reflexivity|right; congruence].
Qed.

(** ** Pickling *)
Definition fold_state (o : nat) (st : list (slot * pyval)) (w : world) : world :=
  fold_left (fun w' kv => upd w' o (setattr (fst kv) (snd kv))) st w.
Lemma fold_state_spec o st : forall w x, obj w o = Some x ->
  obj (fold_state o st w) o = Some (fold_left (fun y kv => setattr (fst kv) (snd kv) y) st x) /\
  (forall o', o' <> o -> obj (fold_state o st w) o' = obj w o').
Proof.
  induction st as [|[k v] st IH]; intros w x Hx; simpl; [auto|].
  destruct (IH (upd w o (setattr k v)) (setattr k v x) (obj_upd_same _ _ _ _ Hx)) as [H1 H2]. split; [exact H1|].
  intros o' Hne. rewrite H2 by exact Hne. apply obj_upd_other. congruence.
Qed.

Theorem pickle_roundtrip w p hit x : Inv w -> o_name x <> "" -> p = dumps x ->
  let '(w', o) := loads w p hit in
  (forall o', o' <> o -> obj w' o' = obj w o') /\
  exists y, obj w' o = Some y /\ o_name y = o_name x /\ o_cls y = o_cls x /\
    (cls_par (o_cls x) = true -> forall k v, getattr k x = Some v -> getattr k y = Some v) /\
    (forall k, getattr k x = None -> cls_par (o_cls x) = true -> obj w o = None -> getattr k y = None).
Proof.
  intros HI Hn ->. unfold loads. destruct (argument_new w (k_cls (dumps x)) (Some (k_name (dumps x))) hit) as [w1 o] eqn:E.
  assert (Hn' : Some (k_name (dumps x)) <> Some "") by (simpl; congruence).
  destruct (argument_new_spec _ _ _ _ _ _ HI Hn' E) as (HI1 & _ & Hfr & b & Hb & Hbn & Hbc & Hcase). simpl in Hbn, Hbc.
  destruct (fold_state_spec o (k_state (dumps x)) w1 _ Hb) as [H1 H2]. fold (fold_state o (k_state (dumps x)) w1).
  split; [intros o' Hne; rewrite H2 by exact Hne; apply Hfr; exact Hne|].
  eexists. split; [exact H1|]. clear H1 H2. simpl k_state.
  destruct (cls_par (o_cls x)) eqn:Ep.
  - destruct x as [xc xn xi xv xm xM xf]; destruct xv, xm, xM, xf; simpl in *; (split; [exact Hbn|]); (split; [exact Hbc|]);
      (split; [intros _ [] v Hv; simpl in *; congruence|]); intros k Hk _ Hnone; destruct Hcase as [(_ & _ & H)|(_ & _ & ->)]; try congruence; destruct k; simpl in *; try discriminate; reflexivity.
  - simpl. split; [exact Hbn|]. split; [exact Hbc|]. split; [discriminate|]. intros k _ H. discriminate.
Qed.
