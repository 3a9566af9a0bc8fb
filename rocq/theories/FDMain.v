(** * FDMain: finite_difference end to end. *)
From Coq Require Import Reals Lra FunctionalExtensionality.
From Coquelicot Require Import Coquelicot.
From Verif Require Import PyBase PyFacts Signature SignatureFacts Expr NumPy NumFacts ModelSpec CallFacts FiniteDiff FDSpec FDFacts FDAnalysis.
Local Open Scope R_scope.
Local Open Scope list_scope.

Lemma mapM_dlook_combine {V} (names : list string) (vs : list V) pre suf prev sufv :
  NoDup (pre ++ names ++ suf) -> List.length pre = List.length prev -> List.length names = List.length vs ->
  mapM (dlook (combine (pre ++ names ++ suf) (prev ++ vs ++ sufv))) names = Ok vs.
Proof.
  revert vs pre prev; induction names as [|x names IH]; intros vs pre prev Hnd Hl Hv; destruct vs as [|v vs]; try discriminate; [reflexivity|].
  simpl in Hv. injection Hv as Hv. cbn [mapM].
  assert (E : dlook (combine (pre ++ (x :: names) ++ suf) (prev ++ (v :: vs) ++ sufv)) x = Ok v).
  { unfold dlook. rewrite combine_app by exact Hl. rewrite dget_app. simpl combine.
    assert (Hx : ~ In x pre) by (intros Hin; apply (NoDup_remove_2 pre (names ++ suf) x Hnd), in_or_app; left; exact Hin).
    destruct (dget (combine pre prev) x) as [w|] eqn:Ew.
    - exfalso. apply Hx. apply dget_In in Ew. apply in_combine_l in Ew. exact Ew.
    - simpl. destruct (eq_dec x x) as [_|N]; [reflexivity|contradiction]. }
  rewrite E. cbn [bind].
  specialize (IH vs (pre ++ [x]) (prev ++ [v])). rewrite <- !app_assoc in IH. simpl in IH. simpl app. rewrite IH; auto.
  rewrite !app_length. simpl. lia.
Qed.

Lemma mapM_bind_map {A B C} (f : A -> res B) (h : B -> res C) l m : mapM f l = Ok m ->
  mapM (fun x => y <- f x ;; h y) l = mapM h m.
Proof.
  revert m; induction l as [|x l IH]; intros m H; simpl in *; [inv H; reflexivity|].
  apply bind_Ok in H as (y & Hy & H). apply bind_Ok in H as (ys & Hys & H). inv H. rewrite Hy. simpl. rewrite (IH ys) by exact Hys. reflexivity.
Qed.

Lemma in_combine_seq (l : list R) k q : In q (combine (seq k (List.length l)) l) ->
  q = (fst q, nth (fst q - k) l 0) /\ (k <= fst q < k + List.length l)%nat.
Proof.
  revert k; induction l as [|x l IH]; intros k H; simpl in H; [contradiction|].
  destruct H as [<-|H].
  - cbn [fst]. rewrite Nat.sub_diag. simpl. split; [reflexivity|lia].
  - destruct (IH (S k) H) as [E Hk]. split; [|simpl; lia]. rewrite E at 1. f_equal.
    replace (fst q - k)%nat with (S (fst q - S k)) by lia. reflexivity.
Qed.

Section Main.
  Variables (g : gmodel) (vars : list nd) (sh : nat -> list nat) (F : list R -> nat -> nd) (pv : list R) (dx : R).
  Variables (args : list nd) (kw : dict string nd).
  Hypothesis Hnd : NoDup (g_indep g ++ g_params g).
  Hypothesis Hlv : List.length vars = List.length (g_indep g).
  Hypothesis Hpv : List.length pv = List.length (g_params g).
  Hypothesis Hs : supplies (combine (g_indep g ++ g_params g) (vars ++ map scalar pv)) args kw.

  Lemma names_of_combine : dkeys (combine (g_indep g ++ g_params g) (vars ++ map scalar pv)) = g_indep g ++ g_params g.
  Proof using Hlv Hpv. apply dkeys_combine. rewrite !app_length, map_length. lia. Qed.

  Lemma fd_unfold : finite_difference g dx args kw [] =
    pfold (fun out jv => pfold (fd_once g vars pv dx jv) out fd_orders) None (combine (seq 0 (List.length pv)) pv) [].
  Proof using Hnd Hlv Hpv Hs.
    unfold finite_difference.
    assert (Hb : sig_bind (map pos_param (g_indep g ++ g_params g)) args kw = Ok (combine (g_indep g ++ g_params g) (vars ++ map scalar pv))).
    { apply sig_bind_supplies; [exact Hnd|eapply supplies_nodup; [rewrite names_of_combine; exact Hnd|exact Hs]|].
      split; [apply names_of_combine|exact Hs]. }
    unfold pbind at 1, ret at 1. rewrite Hb. unfold pbind at 1, ret at 1.
    pose proof (mapM_dlook_combine (g_indep g) vars [] (g_params g) [] (map scalar pv) Hnd eq_refl ltac:(lia)) as E1. simpl app in E1. rewrite E1.
    unfold pbind at 1, ret at 1.
    pose proof (mapM_dlook_combine (g_params g) (map scalar pv) (g_indep g) [] vars []) as E2. rewrite !app_nil_r in E2.
    rewrite (mapM_bind_map _ as_float _ _ (E2 Hnd ltac:(lia) ltac:(rewrite map_length; lia))).
    assert (E3 : mapM as_float (map scalar pv) = Ok pv).
    { clear. induction pv as [|v l IH]; simpl; [reflexivity|]. rewrite IH. reflexivity. }
    rewrite E3. reflexivity.
  Qed.

  Hypothesis Hev : evaluates g vars sh F dx pv.
  Hypothesis Hne : g_params g <> [].

  Lemma fd_values : exists out log, finite_difference g dx args kw [] = (Ok (Some out), log) /\
    List.length log = (6 * List.length (g_params g))%nat /\
    (forall xs, In xs log -> stencil dx pv xs) /\
    List.length out = g_len g /\
    forall c, (c < g_len g)%nat ->
      shp (nth c out (scalar 0)) = (match sh c with [] => [1%nat] | s => s end) ++ [List.length (g_params g)] /\
      forall i j, (j < List.length (g_params g))%nat ->
        val (nth c out (scalar 0)) (i ++ [j]) =
        central6 (fun t => elem (F (with_entry pv j t) c) i) (nth j pv 0) (step_of dx (nth j pv 0)).
  Proof using Hnd Hlv Hpv Hs Hev Hne.
    rewrite fd_unfold.
    destruct (loop_ok g vars sh F pv dx Hev Hpv (combine (seq 0 (List.length pv)) pv) 0 None (fun _ _ => 0) []) as (out & E & Hn & Ho).
    - intros q Hq. apply in_combine_seq in Hq as [Hq Hk]. rewrite Nat.sub_0_r in Hq. split; [exact Hq|]. rewrite <- Hpv. lia.
    - rewrite combine_length, seq_length, Nat.min_id. rewrite <- (Nat.min_id (List.length pv)) at 2. rewrite Nat.min_id.
      apply (dkeys_combine (seq 0 (List.length pv)) pv). apply seq_length.
    - exact (fun _ _ => eq_refl).
    - rewrite E. destruct out as [out|].
      2:{ exfalso. apply Hn; [|reflexivity]. left. intros C. apply (f_equal (@List.length _)) in C. rewrite combine_length, seq_length, Nat.min_id, Hpv in C.
          apply Hne. destruct (g_params g); [reflexivity|discriminate]. }
      clear Hn E. exists out. eexists. split; [reflexivity|]. rewrite app_nil_l.
      assert (Ek : map fst (combine (seq 0 (List.length pv)) pv) = seq 0 (List.length pv)) by (apply (dkeys_combine (seq 0 (List.length pv)) pv); apply seq_length).
      rewrite Ek. split; [|split].
      + assert (Hlen : forall m k, List.length (flat_map (fun j => flat_map (points pv dx j) fd_orders) (seq k m)) = (6 * m)%nat).
        { clear. induction m as [|m IH]; intros k; [reflexivity|]. cbn [seq flat_map]. rewrite app_length, IH. unfold fd_orders. simpl. lia. }
        rewrite Hlen, Hpv. reflexivity.
      + intros xs Hx. apply in_flat_map in Hx as (j & Hj & Hx). apply in_seq in Hj. apply in_flat_map in Hx as (of & Hof & Hx).
        assert (Hj' : (j < List.length (g_params g))%nat) by (rewrite <- Hpv; lia).
        assert (Hk3 : (1 <= fst of <= 3)%nat) by (unfold fd_orders in Hof; destruct Hof as [<-|[<-|[<-|[]]]]; cbn [fst]; lia).
        pose proof (in_stencil g pv dx Hpv j of Hj' Hk3) as [Hu Hd]. unfold points in Hx. destruct Hx as [<-|[<-|[]]]; assumption.
      + destruct Ho as [Hl Ho]. split; [exact Hl|]. intros c Hc. destruct (Ho c Hc) as [Hsh Hv].
        split; [exact Hsh|]. intros i j Hj. rewrite Hv, last_last, removelast_last.
        rewrite combine_length, seq_length, Nat.min_id, Hpv.
        cbn [Nat.leb andb]. cbv zeta. rewrite (proj2 (Nat.ltb_lt j (0 + List.length (g_params g)))) by lia.
        unfold row, contrib, central6. cbn [fst snd]. rewrite !fd_h_step. simpl INR.
        set (h := step_of dx (nth j pv 0)). set (x := nth j pv 0).
        replace (1 * h) with h by ring. replace ((1 + 1) * h) with (2 * h) by ring. replace ((1 + 1 + 1) * h) with (3 * h) by ring.
        unfold Rdiv. ring.
  Qed.

  (** Exact for polynomials. *)
  Lemma fd_exact : dx <> 0 -> exists out log, finite_difference g dx args kw [] = (Ok (Some out), log) /\
    forall c j i (a : nat -> R), (c < g_len g)%nat -> (j < List.length (g_params g))%nat ->
      (forall t, elem (F (with_entry pv j t) c) i = sum_f_R0 (fun m => a m * t ^ m) 6) ->
      is_derive (fun t => elem (F (with_entry pv j t) c) i) (nth j pv 0) (val (nth c out (scalar 0)) (i ++ [j])).
  Proof using Hnd Hlv Hpv Hs Hev Hne.
    intros Hdx. destruct fd_values as (out & log & E & _ & _ & _ & H). exists out, log. split; [exact E|].
    intros c j i a Hc Hj Ha. destruct (H c Hc) as [_ Hv]. rewrite Hv by exact Hj.
    rewrite (central6_ext _ (fun t => sum_f_R0 (fun m => a m * t ^ m) 6)) by exact Ha.
    rewrite central6_poly by (apply step_nonzero; exact Hdx).
    apply (is_derive_ext (fun t => sum_f_R0 (fun m => a m * t ^ m) 6)); [intros t; symmetry; apply Ha|]. apply poly_is_derive.
  Qed.

  Lemma fd_error : dx <> 0 -> exists out log, finite_difference g dx args kw [] = (Ok (Some out), log) /\
    forall c j i M, (c < g_len g)%nat -> (j < List.length (g_params g))%nat ->
      let f := fun t => elem (F (with_entry pv j t) c) i in
      let x := nth j pv 0 in let h := step_of dx x in
      (forall t, x - 3 * Rabs h - 1 < t < x + 3 * Rabs h + 1 -> forall k, (k <= 7)%nat -> ex_derive_n f k t) ->
      (forall t, x - 3 * Rabs h <= t <= x + 3 * Rabs h -> Rabs (Derive_n f 7 t) <= M) ->
      Rabs (val (nth c out (scalar 0)) (i ++ [j]) - Derive f x) <= 113 / 5040 * M * h ^ 6.
  Proof using Hnd Hlv Hpv Hs Hev Hne.
    intros Hdx. destruct fd_values as (out & log & E & _ & _ & _ & H). exists out, log. split; [exact E|].
    intros c j i M Hc Hj f x h Hd HM. destruct (H c Hc) as [_ Hv]. rewrite Hv by exact Hj.
    apply central6_error; auto. apply step_nonzero; exact Hdx.
  Qed.
End Main.
