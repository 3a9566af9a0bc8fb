(** * PrintingFacts *)
From Verif Require Import PyBase Printing.
Local Open Scope string_scope.
Local Open Scope list_scope.

Section Facts.
  Context {V : Type} (add mul pow dot : V -> V -> V) (inv : V -> V) (env : string -> V).
  Context (add_assoc : forall a b c, add (add a b) c = add a (add b c)).
  Context (mul_assoc : forall a b c, mul (mul a b) c = mul a (mul b c)).
  Notation denote := (denote add mul pow dot inv env).
  Notation interp := (interp add mul pow dot inv env).
  Notation power := (power pow).
  Notation term := (term mul pow).
  Notation arith := (arith add mul pow).
  Notation its e := (map interp (print e)).
  Notation item := (@item V).

  Lemma split_cons_ex (p : item -> bool) l : exists s r, split p l = s :: r.
  Proof. induction l as [|x l (s & r & IH)]; simpl; [eauto|]. destruct (p x); [eauto|]. rewrite IH. eauto. Qed.
  Lemma split_none (p : item -> bool) l : (forall x, In x l -> p x = false) -> split p l = [l].
  Proof.
    induction l as [|x l IH]; simpl; intros H; [reflexivity|]. rewrite (H x) by auto. rewrite IH by (intros y Hy; apply H; auto). reflexivity.
  Qed.
  Lemma split_app (p : item -> bool) l x m : p x = true -> split p (l ++ x :: m) = split p l ++ split p m.
  Proof.
    intros Hx. induction l as [|y l IH]; simpl; [rewrite Hx; reflexivity|]. rewrite IH. destruct (p y); [reflexivity|].
    destruct (split_cons_ex p l) as (s & r & ->). reflexivity.
  Qed.
  Lemma opts_app {B} (l m : list (option B)) : opts (l ++ m) = obind (opts l) (fun a => option_map (app a) (opts m)).
  Proof.
    induction l as [|[x|] l IH]; simpl; [destruct (opts m); reflexivity| |reflexivity].
    rewrite IH. destruct (opts l); simpl; [|reflexivity]. destruct (opts m); reflexivity.
  Qed.
  Lemma lefts_app f (Hf : forall a b c : V, f (f a b) c = f a (f b c)) l m v w :
    lefts f l = Some v -> lefts f m = Some w -> lefts f (l ++ m) = Some (f v w).
  Proof.
    destruct l as [|x l]; [discriminate|]. destruct m as [|y m]; [discriminate|]. simpl. intros [= Hv] [= Hw]. f_equal.
    rewrite fold_left_app, Hv. simpl. clear Hv. revert y w Hw. induction m as [|z m IH]; intros y w Hw; simpl in *; [congruence|].
    rewrite Hf. apply IH. exact Hw.
  Qed.

  Definition free_of (p : item -> bool) (l : list item) := forall x, In x l -> p x = false.

  Lemma free_app p l x m : free_of p l -> p x = false -> free_of p m -> free_of p (l ++ x :: m).
  Proof. intros H1 H2 H3 y Hy. apply in_app_iff in Hy as [Hy|[<-|Hy]]; auto. Qed.

  (** Without + the code is a term; without * a power. *)
  Lemma arith_term l : free_of is_plus l -> arith l = term l.
  Proof. intros H. unfold Printing.arith. rewrite split_none by exact H. cbn [map opts]. destruct (term l); reflexivity. Qed.
  Lemma term_power l : free_of is_star l -> term l = power l.
  Proof. intros H. unfold Printing.term. rewrite split_none by exact H. cbn [map opts]. destruct (power l); reflexivity. Qed.

  Lemma arith_add l m v w : arith l = Some v -> arith m = Some w -> arith (l ++ IPlus :: m) = Some (add v w).
  Proof.
    unfold Printing.arith. rewrite split_app by reflexivity. rewrite map_app, opts_app. intros H1 H2.
    destruct (opts (map term (split is_plus l))) as [a|]; [|discriminate]. destruct (opts (map term (split is_plus m))) as [b|]; [|discriminate].
    cbn [obind option_map] in *. apply lefts_app; auto.
  Qed.
  Lemma term_mul l m v w : term l = Some v -> term m = Some w -> term (l ++ IStar :: m) = Some (mul v w).
  Proof.
    unfold Printing.term. rewrite split_app by reflexivity. rewrite map_app, opts_app. intros H1 H2.
    destruct (opts (map power (split is_star l))) as [a|]; [|discriminate]. destruct (opts (map power (split is_star m))) as [b|]; [|discriminate].
    cbn [obind option_map] in *. apply lefts_app; auto.
  Qed.
  Lemma power_pow v m w : power m = Some w -> power (IVal v :: IPow :: m) = Some (pow v w).
  Proof.
    unfold Printing.power. change (IVal v :: IPow :: m) with ([IVal v] ++ IPow :: m). rewrite split_app by reflexivity.
    cbn [split is_pow app map atom opts]. destruct (opts (map atom (split is_pow m))) as [b|]; [|discriminate]. cbn [obind option_map].
    intros H. destruct b as [|x b]; [discriminate|]. cbn [pows] in *. rewrite H. reflexivity.
  Qed.

  Lemma print_correct e : printable e ->
    arith (its e) = Some (denote e) /\
    (~ is_sum e -> free_of is_plus (its e) /\ term (its e) = Some (denote e)) /\
    (is_atom e -> its e = [IVal (denote e)]) /\
    (is_atom e \/ is_hpow e -> free_of is_plus (its e) /\ free_of is_star (its e) /\ power (its e) = Some (denote e)).
  Proof using add_assoc mul_assoc.
    assert (Hatom : forall v, free_of is_plus [IVal v] /\ free_of is_star [IVal v] /\ power [IVal v] = Some v /\ term [IVal v] = Some v /\ arith [IVal v] = Some v).
    { intros v. split; [intros x [<-|[]]; reflexivity|]. split; [intros x [<-|[]]; reflexivity|]. repeat split. }
    induction 1 as [n|a b Ha IHa Hb IHb|a b Ha IHa Hb IHb|a Ha IHa|a b Ha IHa Hb IHb Na Nb|a e Ha IHa He IHe Aa Ee].
    - destruct (Hatom (env n)) as (H1 & H2 & H3 & H4 & H5). simpl. auto 10.
    - simpl. rewrite map_app. cbn [map]. split; [apply arith_add; [apply IHa|apply IHb]|].
      split; [intros H; contradiction H; constructor|]. split; [intros H; inversion H|]. intros [H|H]; inversion H.
    - destruct (Hatom (dot (denote a) (denote b))) as (H1 & H2 & H3 & H4 & H5).
      assert (E : its (MDot a b) = [IVal (dot (denote a) (denote b))]).
      { cbn [print map Printing.interp]. destruct IHa as [-> _]. destruct IHb as [-> _]. reflexivity. }
      rewrite E. simpl. auto 10.
    - destruct (Hatom (inv (denote a))) as (H1 & H2 & H3 & H4 & H5).
      assert (E : its (MInv a) = [IVal (inv (denote a))]).
      { cbn [print map Printing.interp]. destruct IHa as [-> _]. reflexivity. }
      rewrite E. simpl. auto 10.
    - destruct IHa as (_ & IHa & _). destruct IHb as (_ & IHb & _). destruct (IHa Na) as [Fa Ta]. destruct (IHb Nb) as [Fb Tb].
      assert (F : free_of is_plus (its (MHad a b []))) by (cbn [print]; rewrite map_app; apply free_app; [exact Fa|reflexivity|exact Fb]).
      assert (T : term (its (MHad a b [])) = Some (denote (MHad a b []))) by (cbn [print]; rewrite map_app; apply term_mul; assumption).
      split; [rewrite arith_term; assumption|]. split; [auto|]. split; [intros H; inversion H|]. intros [H|H]; inversion H.
    - destruct IHa as (_ & _ & IHa & _). specialize (IHa Aa). destruct IHe as (_ & _ & _ & IHe). destruct (IHe Ee) as (F1 & F2 & P).
      assert (E : its (MHPow a e) = IVal (denote a) :: IPow :: its e) by (cbn [print]; rewrite map_app, IHa; reflexivity).
      assert (G1 : free_of is_plus (its (MHPow a e))) by (rewrite E; intros x [<-|[<-|Hx]]; [reflexivity|reflexivity|apply F1; exact Hx]).
      assert (G2 : free_of is_star (its (MHPow a e))) by (rewrite E; intros x [<-|[<-|Hx]]; [reflexivity|reflexivity|apply F2; exact Hx]).
      assert (G3 : power (its (MHPow a e)) = Some (denote (MHPow a e))) by (rewrite E; apply power_pow; exact P).
      split; [rewrite arith_term, term_power; assumption|]. split; [intros _; split; [exact G1|rewrite term_power; assumption]|].
      split; [intros H; inversion H|]. auto.
  Qed.
End Facts.
