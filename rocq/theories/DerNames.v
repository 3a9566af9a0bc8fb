(** * DerNames: when the names of derivatives are unambiguous.

    About [sname] of a derivative, symfit/core/support.py:313-324. *)
From Verif Require Import PyBase PyFacts Expr.
Local Open Scope string_scope.
Local Open Scope list_scope.

(** The string contains "_d". *)
Fixpoint has_ud (s : string) : bool :=
  match s with
  | EmptyString => false
  | String c s' =>
      (Ascii.eqb c "_"%char && match s' with String c' _ => Ascii.eqb c' "d"%char | _ => false end) || has_ud s'
  end.
(** The string contains "d". *)
Fixpoint has_d (s : string) : bool :=
  match s with EmptyString => false | String c s' => Ascii.eqb c "d"%char || has_d s' end.
Definition is_digit (c : ascii) : bool := (Nat.leb 48 (nat_of_ascii c) && Nat.leb (nat_of_ascii c) 57)%bool.
(** The first character of an identifier is not a digit. *)
Definition starts_ok (s : string) : bool := match s with String c _ => negb (is_digit c) | EmptyString => false end.
(** The string contains "_". *)
Fixpoint has_us (s : string) : bool :=
  match s with EmptyString => false | String c s' => Ascii.eqb c "_"%char || has_us s' end.

Lemma ud_app a t : has_ud (a ++ String "_" (String "d" t))%string = true.
Proof. induction a as [|c a IH]; simpl; [reflexivity|]. rewrite IH. apply orb_true_r. Qed.

Lemma split_ud : forall a b s t, has_ud a = false -> has_ud b = false ->
  (a ++ String "_" (String "d" s) = b ++ String "_" (String "d" t))%string -> a = b /\ s = t.
Proof.
  induction a as [|c a IH]; intros [|c' b] s t Ha Hb H; simpl in H.
  - injection H as H. auto.
  - exfalso. injection H as <- H. simpl in Hb. apply orb_false_iff in Hb as [Hb1 Hb2].
    destruct b as [|c2 b]; simpl in *; [discriminate H|]. injection H as <- _. simpl in Hb1. discriminate.
  - exfalso. injection H as -> H. simpl in Ha. apply orb_false_iff in Ha as [Ha1 Ha2].
    destruct a as [|c2 a]; simpl in *; [discriminate H|]. injection H as -> _. simpl in Ha1. discriminate.
  - injection H as -> H. simpl in Ha, Hb. apply orb_false_iff in Ha as [_ Ha]. apply orb_false_iff in Hb as [_ Hb].
    destruct (IH b s t Ha Hb H) as [-> ->]. auto.
Qed.

Lemma split_d : forall a b s t, has_d a = false -> has_d b = false ->
  (a ++ String "d" s = b ++ String "d" t)%string -> a = b /\ s = t.
Proof.
  induction a as [|c a IH]; intros [|c' b] s t Ha Hb H; simpl in H.
  - injection H as H. auto.
  - exfalso. injection H as <- H. simpl in Hb. discriminate.
  - exfalso. injection H as -> H. simpl in Ha. discriminate.
  - injection H as -> H. simpl in Ha, Hb. apply orb_false_iff in Ha as [_ Ha]. apply orb_false_iff in Hb as [_ Hb].
    destruct (IH b s t Ha Hb H) as [-> ->]. auto.
Qed.

Lemma has_d_app a b : has_d (a ++ b)%string = has_d a || has_d b.
Proof. induction a as [|c a IH]; simpl; [reflexivity|]. rewrite IH, orb_assoc. reflexivity. Qed.
Lemma has_ud_app_nil a : (a ++ "")%string = a.
Proof. induction a as [|c a IH]; simpl; congruence. Qed.
Lemma app_last_inj c : forall a b : string, (a ++ String c "" = b ++ String c "")%string -> a = b.
Proof.
  induction a as [|x a IH]; intros [|y b] H; simpl in H.
  - reflexivity.
  - injection H as _ H. destruct b; discriminate.
  - injection H as _ H. destruct a; discriminate.
  - injection H as -> H. f_equal. apply IH. exact H.
Qed.
Lemma app_assoc_s a b c : ((a ++ b) ++ c)%string = (a ++ (b ++ c))%string.
Proof. induction a as [|x a IH]; simpl; congruence. Qed.

(** The name of a first and of a second derivative, spelled out. *)
Lemma sname_1 y a : sname (SDer y [a]) = ("d" ++ (y ++ "_d" ++ a))%string.
Proof. unfold sname. simpl. rewrite has_ud_app_nil. reflexivity. Qed.
Lemma sname_2_same y a : sname (SDer y [a; a]) = ("d2" ++ (y ++ "_d" ++ (a ++ "2")))%string.
Proof. unfold sname. simpl. destruct (string_dec a a) as [_|H]; [|contradiction H; reflexivity]. reflexivity. Qed.
Lemma sname_2 y a b : a <> b -> sname (SDer y [a; b]) = ("d2" ++ (y ++ "_d" ++ (a ++ "d" ++ b)))%string.
Proof.
  intros H. unfold sname. simpl. destruct (string_dec a b) as [E|_]; [contradiction|]. simpl. rewrite !has_ud_app_nil. reflexivity.
Qed.

(** Variables whose names do not contain "_d". *)
Definition var_name_ok (y : string) : Prop := has_ud y = false /\ starts_ok y = true.

Theorem first_order_names y1 y2 a1 a2 : has_ud y1 = false -> has_ud y2 = false ->
  sname (SDer y1 [a1]) = sname (SDer y2 [a2]) -> y1 = y2 /\ a1 = a2.
Proof.
  intros H1 H2. rewrite !sname_1. intros H. injection H as H. apply split_ud in H; auto.
Qed.

Lemma digit_start y1 y2 s t : var_name_ok y2 -> ("2" ++ (y1 ++ s) = y2 ++ t)%string -> False.
Proof. intros [_ H2] H. destruct y2 as [|c y2]; [discriminate|]. simpl in H. injection H as <- _. discriminate. Qed.

Definition order_12 (ps : list string) : Prop := List.length ps = 1 \/ List.length ps = 2.

Theorem derivative_names y1 y2 ps1 ps2 : var_name_ok y1 -> var_name_ok y2 -> order_12 ps1 -> order_12 ps2 ->
  (forall p, In p ps1 \/ In p ps2 -> has_d p = false) ->
  sname (SDer y1 ps1) = sname (SDer y2 ps2) -> SDer y1 ps1 = SDer y2 ps2.
Proof.
  intros V1 V2 O1 O2 Hp.
  assert (Hcase : forall ps, order_12 ps -> (exists a, ps = [a]) \/ (exists a b, ps = [a; b])).
  { intros [|a [|b [|c ps]]] [H|H]; try discriminate; eauto. }
  pose proof V1 as [U1 S1]. pose proof V2 as [U2 S2].
  assert (D1 : forall p, In p ps1 -> has_d p = false) by (intros p H; apply Hp; auto).
  assert (D2 : forall p, In p ps2 -> has_d p = false) by (intros p H; apply Hp; auto). clear Hp.
  destruct (Hcase ps1 O1) as [(a & ->)|(a & b & ->)], (Hcase ps2 O2) as [(a' & ->)|(a' & b' & ->)].
  - intros H. apply first_order_names in H as [-> ->]; auto.
  - intros H. exfalso. rewrite sname_1 in H. destruct (string_dec a' b') as [->|Hn]; [rewrite sname_2_same in H|rewrite sname_2 in H by exact Hn];
      injection H as H; symmetry in H; exact (digit_start _ _ _ _ V1 H).
  - intros H. exfalso. rewrite sname_1 in H. destruct (string_dec a b) as [->|Hn]; [rewrite sname_2_same in H|rewrite sname_2 in H by exact Hn];
      injection H as H; exact (digit_start _ _ _ _ V2 H).
  - pose proof (D1 a (or_introl eq_refl)) as Da. pose proof (D1 b (or_intror (or_introl eq_refl))) as Db.
    pose proof (D2 a' (or_introl eq_refl)) as Da'. pose proof (D2 b' (or_intror (or_introl eq_refl))) as Db'.
    destruct (string_dec a b) as [<-|Hn], (string_dec a' b') as [<-|Hn'];
      rewrite ?sname_2_same, ?(sname_2 y1 a b) by exact Hn; rewrite ?sname_2_same, ?(sname_2 y2 a' b') by exact Hn';
      intros H; injection H as H; apply split_ud in H as [<- H]; auto.
    + apply app_last_inj in H. subst. reflexivity.
    + exfalso. assert (E : has_d (a ++ "2")%string = true) by (rewrite H, has_d_app; apply orb_true_r).
      rewrite has_d_app, Da in E. discriminate.
    + exfalso. assert (E : has_d (a' ++ "2")%string = true) by (rewrite <- H, has_d_app; apply orb_true_r).
      rewrite has_d_app, Da' in E. discriminate.
    + apply split_d in H as [-> ->]; auto.
Qed.

(** A derivative never has the name of a symbol without underscore. *)
Lemma has_us_app a b : has_us (a ++ b)%string = has_us a || has_us b.
Proof. induction a as [|c a IH]; simpl; [reflexivity|]. rewrite IH, orb_assoc. reflexivity. Qed.
Theorem derivative_not_plain y ps n : has_us n = false -> sname (SDer y ps) <> n.
Proof.
  intros H E. assert (Ht : has_us (sname (SDer y ps)) = true); [|congruence].
  unfold sname. rewrite !has_us_app. simpl. destruct (has_us (count_str (List.length ps))), (has_us y); reflexivity.
Qed.
