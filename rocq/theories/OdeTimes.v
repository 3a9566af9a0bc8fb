(** * OdeTimes: splitting and rejoining the time axis. *)
From Coq Require Import Reals Lra Sorted.
From Verif Require Import PyBase PyFacts Toposort Signature Expr Model ExprR Jacobian Ode.
Local Open Scope R_scope.
Local Open Scope list_scope.

Lemma reqb_true x y : reqb x y = true <-> x = y.
Proof. unfold reqb. destruct (Req_EM_T x y); split; intros; congruence. Qed.
Lemma reqb_false x y : reqb x y = false <-> x <> y.
Proof. unfold reqb. destruct (Req_EM_T x y); split; intros; congruence. Qed.
Lemma rltb_true x y : rltb x y = true <-> x < y.
Proof. unfold rltb. destruct (Rlt_dec x y); split; intros; try congruence; contradiction. Qed.
Lemma rltb_false x y : rltb x y = false <-> y <= x.
Proof. unfold rltb. destruct (Rlt_dec x y); split; intros; try congruence; lra. Qed.
Lemma rleb_true x y : rleb x y = true <-> x <= y.
Proof. unfold rleb. destruct (Rle_dec x y); split; intros; try congruence; contradiction. Qed.
Lemma rleb_false x y : rleb x y = false <-> y < x.
Proof. unfold rleb. destruct (Rle_dec x y); split; intros; try congruence; lra. Qed.

Notation asc := (StronglySorted Rlt).
Notation desc := (StronglySorted Rgt).

Lemma all_ascending_iff l : all_ascending l = true <-> asc l.
Proof.
  unfold all_ascending. induction l as [|x l IH]; [split; intros; [constructor|reflexivity]|].
  destruct l as [|y l]; [split; intros; [repeat constructor|reflexivity]|].
  cbn [tl combine forallb fst snd] in *. rewrite andb_true_iff, rltb_true, IH. split.
  - intros [Hxy Hs]. constructor; [exact Hs|]. constructor; [exact Hxy|]. apply StronglySorted_inv in Hs as [_ Hf].
    eapply Forall_impl; [|exact Hf]. intros a Ha; simpl in *. lra.
  - intros Hs. apply StronglySorted_inv in Hs as [Hs Hf]. inversion Hf; subst. auto.
Qed.
Lemma all_descending_iff l : all_descending l = true <-> desc l.
Proof.
  unfold all_descending. induction l as [|x l IH]; [split; intros; [constructor|reflexivity]|].
  destruct l as [|y l]; [split; intros; [repeat constructor|reflexivity]|].
  cbn [tl combine forallb fst snd] in *. rewrite andb_true_iff, rltb_true, IH. split.
  - intros [Hxy Hs]. constructor; [exact Hs|]. constructor; [lra|]. apply StronglySorted_inv in Hs as [_ Hf].
    eapply Forall_impl; [|exact Hf]. intros a Ha; simpl in *. lra.
  - intros Hs. apply StronglySorted_inv in Hs as [Hs Hf]. inversion Hf; subst. split; [lra|auto].
Qed.

Lemma asc_app l m : asc (l ++ m) <-> asc l /\ asc m /\ (forall x y, In x l -> In y m -> x < y).
Proof.
  induction l as [|a l IH]; simpl.
  - split; [intros H; repeat split; auto; [constructor|tauto]|tauto].
  - split.
    + intros H. apply StronglySorted_inv in H as [H Hf]. apply IH in H as (H1 & H2 & H3). rewrite Forall_app in Hf. destruct Hf as [F1 F2].
      repeat split; auto; [constructor; auto|]. intros x y [->|Hx] Hy; [rewrite Forall_forall in F2; auto|auto].
    + intros (H1 & H2 & H3). apply StronglySorted_inv in H1 as [H1 Hf]. constructor; [apply IH; auto|].
      apply Forall_app. split; [exact Hf|]. apply Forall_forall. auto.
Qed.
Lemma desc_rev l : asc l <-> desc (rev l).
Proof.
  assert (Happ : forall l m : list R, desc (l ++ m) <-> desc l /\ desc m /\ (forall x y, In x l -> In y m -> x > y)).
  { clear l. induction l as [|a l IH]; simpl; intros m.
    - split; [intros H; repeat split; auto; [constructor|tauto]|tauto].
    - split.
      + intros H. apply StronglySorted_inv in H as [H Hf]. apply IH in H as (H1 & H2 & H3). rewrite Forall_app in Hf. destruct Hf as [F1 F2].
        repeat split; auto; [constructor; auto|]. intros x y [->|Hx] Hy; [rewrite Forall_forall in F2; auto|auto].
      + intros (H1 & H2 & H3). apply StronglySorted_inv in H1 as [H1 Hf]. constructor; [apply IH; auto|].
        apply Forall_app. split; [exact Hf|]. apply Forall_forall. auto. }
  induction l as [|a l IH]; simpl; [split; constructor|]. rewrite Happ, <- IH. split.
  - intros H. apply StronglySorted_inv in H as [H Hf]. rewrite Forall_forall in Hf. repeat split; auto; [repeat constructor|].
    intros x y Hx [<-|[]]. apply in_rev in Hx. apply Hf in Hx. lra.
  - intros (H & _ & H3). constructor; [exact H|]. apply Forall_forall. intros x Hx. apply in_rev in Hx. specialize (H3 x a Hx (or_introl eq_refl)). lra.
Qed.

Section Core.
  Context (S : ivp -> res ivp_result) (simp : expr -> expr) (m : ode) (y0 margs : list R) (t0 : R).

  Definition problem (ts : list R) : ivp :=
    {| i_sys := system m; i_jac := diff_system simp m; i_span := (hd 0 ts, last ts 0); i_y0 := y0;
       i_eval := ts; i_args := margs; i_opts := o_opts m |}.

  Definition legal (ts : list R) : Prop := hd 0 ts = t0 /\ (1 < List.length ts)%nat /\ (asc ts \/ desc ts).

  Lemma last_in (l : list R) : l <> [] -> In (last l 0) l.
  Proof. intros H. destruct (exists_last H) as (l' & x & ->). rewrite last_last. apply in_or_app; right; left; reflexivity. Qed.

  Lemma solve_asc B : B <> [] -> (forall t, In t B -> t0 < t) ->
    solve_ivp S (problem (t0 :: B)) = if all_ascending B then S (problem (t0 :: B)) else Raise ValueError.
  Proof.
    intros Hne Hgt. unfold solve_ivp, problem. cbn [i_span i_eval hd].
    assert (Hlast : last (t0 :: B) 0 = last B 0) by (destruct B; [contradiction|reflexivity]). rewrite Hlast.
    assert (Hl : t0 < last B 0) by (apply Hgt, last_in; exact Hne).
    rewrite (Rmin_left t0 (last B 0)), (Rmax_right t0 (last B 0)) by lra.
    assert (Hasc : all_ascending (t0 :: B) = all_ascending B).
    { apply Bool.eq_true_iff_eq. rewrite !all_ascending_iff. split; intros H.
      - apply StronglySorted_inv in H; tauto.
      - constructor; [exact H|]. apply Forall_forall. exact Hgt. }
    rewrite Hasc. destruct (existsb _ _) eqn:Ex.
    - destruct (all_ascending B) eqn:Ha; [|reflexivity]. exfalso. apply all_ascending_iff in Ha.
      apply existsb_exists in Ex as (x & Hx & Ho). apply orb_true_iff in Ho. rewrite !rltb_true in Ho. destruct Hx as [<-|Hx].
      + lra.
      + pose proof (Hgt _ Hx). destruct (exists_last Hne) as (B' & z & ->). rewrite last_last in *.
        apply asc_app in Ha as (_ & _ & Hs). apply in_app_or in Hx as [Hx|[->|[]]]; [specialize (Hs x z Hx (or_introl eq_refl))|]; lra.
    - assert (H1 : rltb t0 (last B 0) = true) by (apply rltb_true; exact Hl). rewrite H1.
      assert (H2 : rltb (last B 0) t0 = false) by (apply rltb_false; lra). rewrite H2. cbn [andb orb].
      destruct (all_ascending B); reflexivity.
  Qed.

  Lemma solve_desc A : A <> [] -> (forall t, In t A -> t < t0) ->
    solve_ivp S (problem (t0 :: rev A)) = if all_ascending A then S (problem (t0 :: rev A)) else Raise ValueError.
  Proof.
    intros Hne Hlt. unfold solve_ivp, problem. cbn [i_span i_eval hd].
    assert (Hlast : last (t0 :: rev A) 0 = hd 0 A).
    { destruct A as [|a A]; [contradiction|]. simpl rev. change (t0 :: rev A ++ [a]) with ((t0 :: rev A) ++ [a]). rewrite last_last. reflexivity. }
    rewrite Hlast.
    assert (Hin : In (hd 0 A) A) by (destruct A; [contradiction|left; reflexivity]).
    assert (Hl : hd 0 A < t0) by (apply Hlt; exact Hin).
    rewrite (Rmin_right t0 (hd 0 A)), (Rmax_left t0 (hd 0 A)) by lra.
    assert (Hasc : all_descending (t0 :: rev A) = all_ascending A).
    { apply Bool.eq_true_iff_eq. rewrite all_descending_iff, all_ascending_iff, desc_rev. split; intros H.
      - apply StronglySorted_inv in H; tauto.
      - constructor; [exact H|]. apply Forall_forall. intros x Hx. apply in_rev in Hx. apply Hlt in Hx. lra. }
    rewrite Hasc. destruct (existsb _ _) eqn:Ex.
    - destruct (all_ascending A) eqn:Ha; [|reflexivity]. exfalso. apply all_ascending_iff in Ha.
      apply existsb_exists in Ex as (x & Hx & Ho). apply orb_true_iff in Ho. rewrite !rltb_true in Ho. destruct Hx as [<-|Hx].
      + lra.
      + apply in_rev in Hx. pose proof (Hlt _ Hx). destruct A as [|a A]; [contradiction|]. simpl in Ho. apply StronglySorted_inv in Ha as [_ Hf].
        rewrite Forall_forall in Hf. destruct Hx as [<-|Hx]; [|apply Hf in Hx]; simpl in *; lra.
    - assert (H1 : rltb t0 (hd 0 A) = false) by (apply rltb_false; lra). rewrite H1.
      assert (H2 : rltb (hd 0 A) t0 = true) by (apply rltb_true; lra). rewrite H2. cbn [andb orb].
      destruct (all_ascending A); reflexivity.
  Qed.

  Lemma mask_all (X : Type) (l : list R) (cols : list X) : List.length l = List.length cols -> (forall t, In t l -> t <> t0) ->
    mask_columns (map (fun t => negb (reqb t t0)) l) cols = cols.
  Proof.
    revert cols. induction l as [|t l IH]; intros [|c cols] Hl Hne; simpl in *; try discriminate; [reflexivity|].
    assert (H : reqb t t0 = false) by (apply reqb_false; auto). rewrite H. simpl. f_equal. apply IH; auto.
  Qed.
  Lemma mask_app (X : Type) ma mb (ca cb : list X) : List.length ma = List.length ca ->
    mask_columns (ma ++ mb) (ca ++ cb) = mask_columns ma ca ++ mask_columns mb cb.
  Proof.
    revert ca. induction ma as [|b ma IH]; intros [|c ca] Hl; simpl in *; try discriminate; [reflexivity|].
    destruct b; simpl; rewrite IH by congruence; reflexivity.
  Qed.

  Context (Y : R -> list R).

  (** The integrator follows [Y] when asked for (some of) the times [ts]. *)
  Definition answers (ts : list R) : Prop := forall l, legal l -> (forall u, In u l -> u = t0 \/ In u ts) ->
    S (problem l) = Ok {| r_success := true; r_y := map Y l |}.

  (** The strategy, for times below [A] and above [B] the initial time. *)
  Definition evaluate (ts tb tsm : list R) : res (list (list R)) :=
    bigger <- integrate S simp m y0 margs tb ;;
    smaller <- integrate S simp m y0 margs tsm ;;
    rejoin t0 ts tb tsm bigger smaller.

  Lemma integrate_unfold ts : integrate S simp m y0 margs ts =
    if Nat.ltb 1 (List.length ts) then r <- solve_ivp S (problem ts) ;; Ok (Some r) else Ok None.
  Proof. reflexivity. Qed.

  Lemma evaluate_split A B ts : (forall t, In t A -> t < t0) -> (forall t, In t B -> t0 < t) ->
    A ++ B <> [] -> (forall l, l = t0 :: B \/ l = t0 :: rev A -> (1 < List.length l)%nat -> asc B -> asc A ->
                      S (problem l) = Ok {| r_success := true; r_y := map Y l |}) ->
    evaluate ts (t0 :: B) (t0 :: rev A) =
      if all_ascending B && all_ascending A
      then Ok (map Y (if existsb (fun t => reqb t t0) ts then A ++ t0 :: B else A ++ B))
      else evaluate ts (t0 :: B) (t0 :: rev A).
  Proof.
    intros HA HB Hne HS. destruct (all_ascending B) eqn:EB; [|reflexivity]. destruct (all_ascending A) eqn:EA; [|reflexivity]. simpl andb.
    pose proof EA as EA'. pose proof EB as EB'. rewrite all_ascending_iff in EA', EB'.
    unfold evaluate. rewrite !integrate_unfold.
    assert (Hb : (if Nat.ltb 1 (List.length (t0 :: B)) then r <- solve_ivp S (problem (t0 :: B)) ;; Ok (Some r) else Ok None)
                 = Ok (match B with [] => None | _ => Some {| r_success := true; r_y := map Y (t0 :: B) |} end)).
    { destruct B as [|b B']; [reflexivity|]. cbn [List.length Nat.ltb Nat.leb]. rewrite solve_asc by (auto; discriminate). rewrite EB.
      rewrite HS by (auto; cbn [List.length]; lia). reflexivity. }
    assert (Hs : (if Nat.ltb 1 (List.length (t0 :: rev A)) then r <- solve_ivp S (problem (t0 :: rev A)) ;; Ok (Some r) else Ok None)
                 = Ok (match A with [] => None | _ => Some {| r_success := true; r_y := map Y (t0 :: rev A) |} end)).
    { destruct A as [|a A']; [reflexivity|].
      assert (Hlen : Nat.ltb 1 (List.length (t0 :: rev (a :: A'))) = true).
      { apply Nat.ltb_lt. cbn [List.length]. rewrite rev_length. cbn [List.length]. lia. }
      rewrite Hlen. rewrite solve_desc by (auto; discriminate). rewrite EA.
      apply Nat.ltb_lt in Hlen. rewrite HS by auto. reflexivity. }
    rewrite Hb, Hs. cbn [bind]. unfold rejoin.
    assert (Hans : (match (match A with [] => None | _ => Some {| r_success := true; r_y := map Y (t0 :: rev A) |} end),
                          (match B with [] => None | _ => Some {| r_success := true; r_y := map Y (t0 :: B) |} end) with
                   | Some s, Some b => ys <- check_success s ;; yb <- check_success b ;; Ok (rev (tl ys) ++ yb)
                   | None, Some b => check_success b
                   | None, None => Raise AttributeError
                   | Some s, None => ys <- check_success s ;; Ok (rev ys)
                   end) = Ok (map Y (A ++ t0 :: B))).
    { destruct A as [|a A'], B as [|b B']; [contradiction (Hne eq_refl)| | |].
      - reflexivity.
      - unfold check_success. cbn [r_success r_y bind]. f_equal. change (t0 :: rev (a :: A')) with ([t0] ++ rev (a :: A')).
        rewrite map_app, rev_app_distr, <- map_rev, rev_involutive, map_app. reflexivity.
      - unfold check_success. cbn [r_success r_y bind map tl]. f_equal. rewrite <- map_rev, rev_involutive. rewrite map_app. reflexivity. }
    rewrite Hans. cbn [bind]. destruct (existsb _ ts); [reflexivity|].
    assert (Htot : removelast (rev (t0 :: rev A)) ++ t0 :: B = A ++ t0 :: B).
    { cbn [rev]. rewrite rev_involutive, removelast_last. reflexivity. }
    rewrite Htot. rewrite map_length, Nat.eqb_refl. f_equal. rewrite !map_app. rewrite mask_app by (rewrite !map_length; reflexivity).
    rewrite mask_all; [|rewrite map_length; reflexivity|intros t Ht; apply HA in Ht; lra]. f_equal.
    cbn [map mask_columns]. assert (H : reqb t0 t0 = true) by (apply reqb_true; reflexivity). rewrite H. simpl.
    apply mask_all; [rewrite map_length; reflexivity|]. intros t Ht; apply HB in Ht; lra.
  Qed.

  Definition below (ts : list R) := filter (fun t => rltb t t0) ts.
  Definition above (ts : list R) := filter (fun t => rltb t0 t) ts.

  Lemma asc_filter f (l : list R) : asc l -> asc (filter f l).
  Proof using.
    induction l as [|x l IH]; simpl; intros H; [constructor|]. apply StronglySorted_inv in H as [H Hf]. destruct (f x); auto.
    constructor; auto. apply Forall_forall. intros y Hy. apply filter_In in Hy as [Hy _]. rewrite Forall_forall in Hf; auto.
  Qed.

  Lemma asc_split ts : asc ts ->
    (In t0 ts -> ts = below ts ++ t0 :: above ts) /\ (~ In t0 ts -> ts = below ts ++ above ts).
  Proof using.
    clear Y.
    unfold below, above. induction ts as [|x ts IH]; intros Ha; [split; [intros []|reflexivity]|].
    apply StronglySorted_inv in Ha as [Ha Hf]. rewrite Forall_forall in Hf. destruct (IH Ha) as [I1 I2]. simpl.
    assert (Hno : x >= t0 -> filter (fun t => rltb t t0) ts = []).
    { intros Hx. clear -Hf Hx. induction ts as [|y ts IH]; [reflexivity|]. simpl.
      assert (Hy : rltb y t0 = false) by (apply rltb_false; specialize (Hf y (or_introl eq_refl)); lra). rewrite Hy. apply IH. intros; apply Hf; right; assumption. }
    destruct (Rlt_le_dec x t0) as [Hx|Hx].
    - assert (H1 : rltb x t0 = true) by (apply rltb_true; exact Hx). assert (H2 : rltb t0 x = false) by (apply rltb_false; lra).
      rewrite H1, H2. split.
      + intros [->|Hin]; [lra|]. simpl. f_equal. auto.
      + intros Hn. simpl. f_equal. apply I2. tauto.
    - assert (H1 : rltb x t0 = false) by (apply rltb_false; exact Hx). rewrite H1, Hno by lra. destruct (Req_dec x t0) as [->|Hne].
      + assert (H2 : rltb t0 t0 = false) by (apply rltb_false; lra). rewrite H2. split; [|tauto]. intros _. simpl. f_equal.
        assert (Hn : ~ In t0 ts) by (intros Hin; apply Hf in Hin; lra). rewrite Hno in I2 by lra. exact (I2 Hn).
      + assert (H2 : rltb t0 x = true) by (apply rltb_true; lra). rewrite H2.
        assert (Hn : ~ In t0 ts) by (intros Hin; apply Hf in Hin; lra). rewrite Hno in I2 by lra. simpl in *. split; [intros [He|Hin]; [lra|contradiction]|].
        intros _. f_equal. auto.
  Qed.

  Lemma has_initial ts : existsb (fun t => reqb t t0) ts = true <-> In t0 ts.
  Proof using.
    rewrite existsb_exists. split; [intros (x & Hx & He); apply reqb_true in He; subst; exact Hx|].
    intros H. exists t0. split; [exact H|apply reqb_true; reflexivity].
  Qed.
  Lemma filter_all (f : R -> bool) l : (forall x, In x l -> f x = true) -> filter f l = l.
  Proof using. exact (filter_true f l). Qed.
  Lemma filter_none (f : R -> bool) l : (forall x, In x l -> f x = false) -> filter f l = [].
  Proof using. induction l as [|x l IH]; simpl; intros H; [reflexivity|]. rewrite H by (left; reflexivity). apply IH. intros; apply H; right; assumption. Qed.
  Lemma in_below t ts : In t (below ts) <-> In t ts /\ t < t0.
  Proof using. unfold below. rewrite filter_In, rltb_true. reflexivity. Qed.
  Lemma in_above t ts : In t (above ts) <-> In t ts /\ t0 < t.
  Proof using. unfold above. rewrite filter_In, rltb_true. reflexivity. Qed.

  Lemma split_asc ts : asc ts -> split_times t0 ts = (t0 :: above ts, t0 :: rev (below ts)).
  Proof using.
    clear Y.
    intros Ha. unfold split_times. destruct (existsb _ ts) eqn:E; [|reflexivity].
    apply has_initial in E. destruct (asc_split ts Ha) as [H _]. specialize (H E).
    set (A := below ts) in *. set (B := above ts) in *.
    assert (HA : forall t, In t A -> t < t0) by (intros t Ht; apply in_below in Ht; tauto).
    assert (HB : forall t, In t B -> t0 < t) by (intros t Ht; apply in_above in Ht; tauto).
    rewrite H. rewrite !filter_app. cbn [filter].
    assert (H1 : rleb t0 t0 = true) by (apply rleb_true; lra). rewrite !H1.
    rewrite (filter_none (fun t => rleb t0 t) A), (filter_all (fun t => rleb t0 t) B), (filter_all (fun t => rleb t t0) A), (filter_none (fun t => rleb t t0) B).
    - simpl. rewrite rev_app_distr. reflexivity.
    - intros x Hx; apply HB in Hx; apply rleb_false; lra.
    - intros x Hx; apply HA in Hx; apply rleb_true; lra.
    - intros x Hx; apply HB in Hx; apply rleb_true; lra.
    - intros x Hx; apply HA in Hx; apply rleb_false; lra.
  Qed.

  (** Increasing times, at least one different from the initial time. *)
  Lemma evaluate_ascending ts : answers ts -> asc ts -> (exists t, In t ts /\ t <> t0) ->
    evaluate ts (fst (split_times t0 ts)) (snd (split_times t0 ts)) = Ok (map Y ts).
  Proof.
    intros HS Ha (t & Ht & Hne). rewrite split_asc by exact Ha. cbn [fst snd].
    assert (HA : forall t, In t (below ts) -> t < t0) by (intros x Hx; apply in_below in Hx; tauto).
    assert (HB : forall t, In t (above ts) -> t0 < t) by (intros x Hx; apply in_above in Hx; tauto).
    assert (AA : asc (below ts)) by (apply asc_filter; exact Ha). assert (AB : asc (above ts)) by (apply asc_filter; exact Ha).
    rewrite evaluate_split; auto.
    - rewrite (proj2 (all_ascending_iff _) AA), (proj2 (all_ascending_iff _) AB). simpl andb.
      destruct (asc_split ts Ha) as [H1 H2]. destruct (existsb _ ts) eqn:E.
      + apply has_initial in E. rewrite <- H1 by exact E. reflexivity.
      + rewrite <- H2; [reflexivity|]. intros H. apply has_initial in H. congruence.
    - intros Hn. apply app_eq_nil in Hn as [Hn1 Hn2]. destruct (Rtotal_order t t0) as [H|[H|H]]; [|contradiction|].
      + assert (In t (below ts)) by (apply in_below; auto). rewrite Hn1 in *; contradiction.
      + assert (In t (above ts)) by (apply in_above; auto). rewrite Hn2 in *; contradiction.
    - intros l Hl Hlen _ _. apply HS.
      2:{ intros u Hu. destruct Hl as [->| ->]; (destruct Hu as [<-|Hu]; [left; reflexivity|right]).
          - apply in_above in Hu; tauto.
          - apply in_rev, in_below in Hu; tauto. }
      split; [destruct Hl as [->| ->]; reflexivity|]. split; [exact Hlen|]. destruct Hl as [->| ->].
      + left. constructor; [exact AB|]. apply Forall_forall. exact HB.
      + right. constructor; [apply desc_rev in AA; exact AA|]. apply Forall_forall. intros x Hx. apply in_rev in Hx. apply HA in Hx. lra.
  Qed.

  (** Any order, the initial time not among the times: ValueError, or sorted. *)
  Lemma evaluate_unsorted ts : answers ts -> ts <> [] -> ~ In t0 ts ->
    let r := evaluate ts (fst (split_times t0 ts)) (snd (split_times t0 ts)) in
    (~ (asc (below ts) /\ asc (above ts)) /\ r = Raise ValueError) \/
    (Permutation (below ts ++ above ts) ts /\ asc (below ts ++ above ts) /\ r = Ok (map Y (below ts ++ above ts))).
  Proof.
    intros HS Hne Hn r.
    assert (E : existsb (fun t => reqb t t0) ts = false).
    { destruct (existsb _ ts) eqn:E; [|reflexivity]. apply has_initial in E. contradiction. }
    assert (Hsp : split_times t0 ts = (t0 :: above ts, t0 :: rev (below ts))) by (unfold split_times; rewrite E; reflexivity).
    subst r. rewrite Hsp. cbn [fst snd].
    assert (HA : forall t, In t (below ts) -> t < t0) by (intros x Hx; apply in_below in Hx; tauto).
    assert (HB : forall t, In t (above ts) -> t0 < t) by (intros x Hx; apply in_above in Hx; tauto).
    assert (Hperm : Permutation (below ts ++ above ts) ts).
    { clear -Hn. unfold below, above. induction ts as [|x ts IH]; [constructor|]. simpl. simpl in Hn. assert (x <> t0 /\ ~ In t0 ts) as [Hx Hn'] by tauto.
      specialize (IH Hn'). destruct (Rtotal_order x t0) as [H|[H|H]]; [|contradiction|].
      - rewrite (proj2 (rltb_true x t0) H), (proj2 (rltb_false t0 x)) by lra. simpl. constructor. exact IH.
      - rewrite (proj2 (rltb_false x t0)), (proj2 (rltb_true t0 x)) by lra. etransitivity; [symmetry; apply Permutation_middle|]. constructor. exact IH. }
    destruct (all_ascending (above ts)) eqn:EB.
    - destruct (all_ascending (below ts)) eqn:EA.
      + right. pose proof EA as AA. pose proof EB as AB. rewrite all_ascending_iff in AA, AB.
        split; [exact Hperm|]. split.
        { apply asc_app. repeat split; auto. intros x y Hx Hy. apply HA in Hx. apply HB in Hy. lra. }
        rewrite evaluate_split; auto.
        * rewrite EA, EB, E. reflexivity.
        * intros H0. rewrite H0 in Hperm. apply Permutation_nil in Hperm. contradiction.
        * intros l Hl Hlen _ _. apply HS.
          2:{ intros u Hu. destruct Hl as [->| ->]; (destruct Hu as [<-|Hu]; [left; reflexivity|right]).
              - apply in_above in Hu; tauto.
              - apply in_rev, in_below in Hu; tauto. }
          split; [destruct Hl as [->| ->]; reflexivity|]. split; [exact Hlen|]. destruct Hl as [->| ->].
          -- left. constructor; [exact AB|]. apply Forall_forall. exact HB.
          -- right. constructor; [apply desc_rev in AA; exact AA|]. apply Forall_forall. intros x Hx. apply in_rev in Hx. apply HA in Hx. lra.
      + left. split; [intros [H1 _]; apply all_ascending_iff in H1; congruence|]. unfold evaluate. rewrite !integrate_unfold.
        assert (Hl : Nat.ltb 1 (List.length (t0 :: rev (below ts))) = true).
        { apply Nat.ltb_lt. cbn [List.length]. rewrite rev_length. destruct (below ts); [discriminate|simpl; lia]. }
        assert (Hb : below ts <> []) by (intros H0; rewrite H0 in EA; discriminate).
        rewrite Hl, (solve_desc (below ts) Hb HA), EA. clear Hl. destruct (above ts) as [|b B] eqn:Eb.
        * reflexivity.
        * cbn [List.length Nat.ltb Nat.leb]. rewrite solve_asc by (auto; discriminate). rewrite EB.
          rewrite HS; [reflexivity|split; [reflexivity|split; [simpl; lia|left]]|].
          -- apply all_ascending_iff in EB. constructor; [exact EB|apply Forall_forall; exact HB].
          -- intros u [<-|Hu]; [left; reflexivity|right]. rewrite <- Eb in Hu. apply in_above in Hu; tauto.
    - left. split; [intros [_ H1]; apply all_ascending_iff in H1; congruence|].
      unfold evaluate. rewrite !integrate_unfold. destruct (above ts) as [|b B] eqn:Eb; [discriminate|].
      cbn [List.length Nat.ltb Nat.leb]. rewrite solve_asc by (auto; discriminate). rewrite EB. reflexivity.
  Qed.

  (** A decreasing array that ends at the initial time is handed to the integrator as
      it is, with the initial values. *)
  Lemma evaluate_descending ts : desc ts -> (1 < List.length ts)%nat -> last ts 0 = t0 ->
    evaluate ts (fst (split_times t0 ts)) (snd (split_times t0 ts)) = (r <- S (problem ts) ;; check_success r).
  Proof.
    intros Hd Hlen Hlast. destruct (exists_last (l := ts)) as (l & z & ->); [intros ->; simpl in Hlen; lia|].
    rewrite last_last in Hlast. subst z.
    assert (Hgt : forall x, In x l -> t0 < x).
    { rewrite <- (rev_involutive (l ++ [t0])) in Hd. apply desc_rev in Hd. rewrite rev_app_distr in Hd. simpl in Hd.
      apply StronglySorted_inv in Hd as [_ Hf]. rewrite Forall_forall in Hf. intros x Hx. apply Hf. apply in_rev in Hx. exact Hx. }
    assert (Hex : existsb (fun t => reqb t t0) (l ++ [t0]) = true) by (apply has_initial, in_or_app; right; left; reflexivity).
    unfold split_times. rewrite Hex. rewrite !filter_app. cbn [filter]. assert (H1 : rleb t0 t0 = true) by (apply rleb_true; lra). rewrite H1.
    rewrite (filter_all (fun t => rleb t0 t) l), (filter_none (fun t => rleb t t0) l).
    2:{ intros x Hx. apply Hgt in Hx. apply rleb_false. lra. }
    2:{ intros x Hx. apply Hgt in Hx. apply rleb_true. lra. }
    cbn [app rev fst snd]. unfold evaluate. rewrite !integrate_unfold. rewrite (proj2 (Nat.ltb_lt _ _) Hlen). cbn [List.length Nat.ltb Nat.leb].
    assert (Hs : solve_ivp S (problem (l ++ [t0])) = S (problem (l ++ [t0]))).
    { unfold solve_ivp, problem. cbn [i_span i_eval]. rewrite last_last.
      destruct l as [|x l]; [simpl in Hlen; lia|]. cbn [hd app]. assert (Hx : t0 < x) by (apply Hgt; left; reflexivity).
      rewrite (Rmin_right x t0), (Rmax_left x t0) by lra.
      rewrite (proj2 (rltb_false x t0)), (proj2 (rltb_true t0 x)) by lra. cbn [andb orb].
      cbn [app] in Hd. rewrite (proj2 (all_descending_iff _) Hd). cbn [negb].
      destruct (existsb (fun t => rltb t t0 || rltb x t) (x :: l ++ [t0])) eqn:E; [|reflexivity]. exfalso.
      apply existsb_exists in E as (w & Hw & Ho). apply orb_true_iff in Ho. rewrite !rltb_true in Ho.
      assert (Hw' : t0 <= w <= x); [|lra]. split.
      - change (x :: l ++ [t0]) with ((x :: l) ++ [t0]) in Hw. apply in_app_or in Hw as [Hw|[<-|[]]]; [apply Hgt in Hw|]; lra.
      - destruct Hw as [<-|Hw]; [lra|]. cbn [app] in Hd. apply StronglySorted_inv in Hd as [_ Hf]. rewrite Forall_forall in Hf. apply Hf in Hw. lra. }
    rewrite Hs. destruct (S (problem (l ++ [t0]))) as [r|e]; [|reflexivity]. cbn [bind]. unfold rejoin.
    unfold check_success. rewrite Hex. destruct (r_success r); reflexivity.
  Qed.
End Core.
