(** * FDFacts: the loops of finite_difference compute the six point stencil. *)
From Coq Require Import Reals Lra FunctionalExtensionality.
From Coquelicot Require Import Coquelicot.
From Verif Require Import PyBase PyFacts Signature SignatureFacts Expr NumPy NumFacts FiniteDiff FDSpec.
Local Open Scope R_scope.
Local Open Scope list_scope.

Lemma step_nonzero dx v : dx <> 0 -> step_of dx v <> 0.
Proof.
  intros Hd. unfold step_of. destruct (Rle_dec (/ 10000000) (Rabs v)) as [H|H]; [|exact Hd].
  apply Rmult_integral_contrapositive_currified; [exact Hd|]. intros ->. rewrite Rabs_R0 in H. lra.
Qed.
Lemma fd_h_step dx v o : fd_h dx v o = INR o * step_of dx v.
Proof. unfold fd_h, step_of, big_enough. destruct (Rle_dec (/ 10000000) (Rabs v)); ring. Qed.

(** Never a division by zero. *)
Lemma fd_h_nonzero dx v o : dx <> 0 -> (0 < o)%nat -> fd_h dx v o <> 0.
Proof.
  intros Hd Ho. rewrite fd_h_step. apply Rmult_integral_contrapositive_currified; [|apply step_nonzero; exact Hd].
  apply not_0_INR. lia.
Qed.

Lemma list_set_length {A} (l : list A) k x : List.length (list_set l k x) = List.length l.
Proof. revert k; induction l as [|y l IH]; intros [|k]; simpl; auto. Qed.
Lemma list_set_nth (l : list R) k x i : (i < List.length l)%nat ->
  nth i (list_set l k x) 0 = if Nat.eqb i k then x else nth i l 0.
Proof.
  revert k i; induction l as [|y l IH]; intros k i Hi; simpl in Hi; [lia|].
  destruct k as [|k], i as [|i]; simpl; try reflexivity. apply IH. lia.
Qed.
Lemma nth_zeros {A} (l : list A) i : nth i (map (fun _ => 0) l) 0 = 0.
Proof. revert i; induction l as [|y l IH]; intros [|i]; simpl; auto. Qed.
Lemma list_eq_nth (l m : list R) : List.length l = List.length m ->
  (forall i, (i < List.length l)%nat -> nth i l 0 = nth i m 0) -> l = m.
Proof. intros Hl H. apply (nth_ext _ _ 0 0); auto. Qed.
Lemma with_entry_length xs j t : List.length (with_entry xs j t) = List.length xs.
Proof. unfold with_entry. rewrite map_length, seq_length. reflexivity. Qed.
Lemma with_entry_nth xs j t i : (i < List.length xs)%nat ->
  nth i (with_entry xs j t) 0 = if Nat.eqb i j then t else nth i xs 0.
Proof.
  intros Hi. unfold with_entry.
  rewrite (nth_indep _ 0 ((fun k => if Nat.eqb k j then t else nth k xs 0) 0%nat)) by (rewrite map_length, seq_length; exact Hi).
  rewrite (map_nth (fun k => if Nat.eqb k j then t else nth k xs 0)), seq_nth by exact Hi. reflexivity.
Qed.
Lemma zip_nth (f : R * R -> R) a b i : List.length a = List.length b -> (i < List.length a)%nat ->
  nth i (map f (combine a b)) 0 = f (nth i a 0, nth i b 0).
Proof.
  intros Hl Hi. rewrite (nth_indep _ 0 (f (0, 0))) by (rewrite map_length, combine_length; lia).
  rewrite map_nth, combine_nth by exact Hl. reflexivity.
Qed.
Lemma vadd_entry {A} (ps : list A) pv j h : List.length pv = List.length ps ->
  vadd pv (list_set (map (fun _ => 0) ps) j h) = with_entry pv j (nth j pv 0 + h).
Proof.
  intros Hl. unfold vadd. apply list_eq_nth.
  - rewrite map_length, combine_length, list_set_length, map_length, with_entry_length. lia.
  - intros i Hi. rewrite map_length, combine_length, list_set_length, map_length in Hi.
    rewrite zip_nth by (rewrite ?list_set_length, ?map_length; lia). cbn [fst snd].
    rewrite list_set_nth by (rewrite map_length; lia). rewrite with_entry_nth by lia. rewrite nth_zeros.
    destruct (Nat.eqb_spec i j) as [->|]; ring.
Qed.
Lemma vsub_entry {A} (ps : list A) pv j h : List.length pv = List.length ps ->
  vsub pv (list_set (map (fun _ => 0) ps) j h) = with_entry pv j (nth j pv 0 - h).
Proof.
  intros Hl. unfold vsub. apply list_eq_nth.
  - rewrite map_length, combine_length, list_set_length, map_length, with_entry_length. lia.
  - intros i Hi. rewrite map_length, combine_length, list_set_length, map_length in Hi.
    rewrite zip_nth by (rewrite ?list_set_length, ?map_length; lia). cbn [fst snd].
    rewrite list_set_nth by (rewrite map_length; lia). rewrite with_entry_nth by lia. rewrite nth_zeros.
    destruct (Nat.eqb_spec i j) as [->|]; ring.
Qed.

(** ** The number of calls, whatever the model does. *)
Definition adds_at_most {A} (n : nat) (m : prog A) : Prop :=
  forall l, exists l', snd (m l) = l ++ l' /\ (List.length l' <= n)%nat.
Lemma aam_ret {A} (r : res A) : adds_at_most 0 (ret r).
Proof. intros l. exists []. rewrite app_nil_r. split; [reflexivity|simpl; lia]. Qed.
Lemma aam_bind {A B} n m (p : prog A) (f : A -> prog B) : adds_at_most n p -> (forall a, adds_at_most m (f a)) ->
  adds_at_most (n + m) (pbind p f).
Proof.
  intros Hp Hf l. unfold pbind. destruct (Hp l) as (l1 & E1 & L1). destruct (p l) as [[a|e] l0] eqn:E; simpl in E1; subst l0.
  - destruct (Hf a (l ++ l1)) as (l2 & E2 & L2). exists (l1 ++ l2). rewrite E2, app_assoc, app_length. split; [reflexivity|lia].
  - exists l1. split; [reflexivity|lia].
Qed.
Lemma aam_weak {A} n m (p : prog A) : (n <= m)%nat -> adds_at_most n p -> adds_at_most m p.
Proof. intros Hl Hp l. destruct (Hp l) as (l' & E & L). exists l'. split; [exact E|lia]. Qed.
Lemma aam_fold {A S} n (f : S -> A -> prog S) l : (forall s x, adds_at_most n (f s x)) ->
  forall s, adds_at_most (List.length l * n) (pfold f s l).
Proof.
  intros Hf. induction l as [|x l IH]; intros s; simpl; [apply aam_ret|]. apply aam_bind; auto.
Qed.
Lemma aam_once g vars pv dx jv out of : adds_at_most 2 (fd_once g vars pv dx jv out of).
Proof.
  destruct jv as [idx v], of as [order factor]. unfold fd_once.
  change 2%nat with (1 + (1 + (0 + (0 + 0))))%nat. unfold adds_at_most.
  apply aam_bind. { intros l. eexists. split; [reflexivity|simpl; lia]. } intros up.
  apply aam_bind. { intros l. eexists. split; [reflexivity|simpl; lia]. } intros down.
  apply aam_bind; [apply aam_ret|]. intros o. apply aam_bind; [apply aam_ret|]. intros o'. apply aam_ret.
Qed.

Lemma mapM_length {A B} (f : A -> res B) l m : mapM f l = Ok m -> List.length m = List.length l.
Proof.
  revert m; induction l as [|x l IH]; simpl; intros m H; [inv H; reflexivity|].
  apply bind_Ok in H as (y & Hy & H). apply bind_Ok in H as (ys & Hys & H). inv H. simpl. f_equal. auto.
Qed.

Lemma calls_bound g dx args kw :
  (List.length (snd (finite_difference g dx args kw [])) <= 6 * List.length (g_params g))%nat.
Proof.
  unfold finite_difference. unfold pbind at 1, ret at 1.
  destruct (sig_bind _ _ _) as [b|e]; [|simpl; lia]. unfold pbind at 1, ret at 1.
  destruct (mapM (dlook b) _) as [vars|e]; [|simpl; lia]. unfold pbind at 1, ret at 1.
  destruct (mapM _ (g_params g)) as [pv|e] eqn:E; [|simpl; lia]. apply mapM_length in E.
  assert (H : adds_at_most (List.length (combine (seq 0 (List.length pv)) pv) * 6)
     (pfold (fun out jv => pfold (fd_once g vars pv dx jv) out fd_orders) None (combine (seq 0 (List.length pv)) pv))).
  { apply aam_fold. intros s x. change 6%nat with (List.length fd_orders * 2)%nat. apply aam_fold. intros; apply aam_once. }
  destruct (H []) as (l' & -> & Hl). rewrite app_nil_l. etransitivity; [exact Hl|]. rewrite combine_length, seq_length, Nat.min_id, E. lia.
Qed.

(** ** The values. *)
Section Values.
  Variables (g : gmodel) (vars : list nd) (sh : nat -> list nat) (F : list R -> nat -> nd) (pv : list R) (dx : R).
  Hypothesis Hev : evaluates g vars sh F dx pv.
  Hypothesis Hpv : List.length pv = List.length (g_params g).
  Let n := List.length (g_params g).
  Lemma in_stencil j (of : nat * R) : (j < n)%nat -> (1 <= fst of <= 3)%nat -> let h := fd_h dx (nth j pv 0) (fst of) in
    stencil dx pv (with_entry pv j (nth j pv 0 + h)) /\ stencil dx pv (with_entry pv j (nth j pv 0 - h)).
  Proof using Hpv.
    intros Hj Ho h. unfold h. rewrite fd_h_step. split; exists j, (fst of); (split; [rewrite Hpv; exact Hj|]); (split; [exact Ho|]); cbv zeta; auto.
  Qed.

  Definition full_shape (c : nat) : list nat := match sh c with [] => [1%nat] | s => s end ++ [n].
  (** The contribution of one order for entry [j]. *)
  Definition contrib (j : nat) (of : nat * R) (c : nat) (i : list nat) : R :=
    let h := fd_h dx (nth j pv 0) (fst of) in
    snd of * (elem (F (with_entry pv j (nth j pv 0 + h)) c) i - elem (F (with_entry pv j (nth j pv 0 - h)) c) i) / (2 * h).

  (** [o] holds [W c] for every component. *)
  Definition holds (o : list nd) (W : nat -> list nat -> R) : Prop :=
    List.length o = g_len g /\
    forall c, (c < g_len g)%nat -> shp (nth c o (scalar 0)) = full_shape c /\ forall i, val (nth c o (scalar 0)) i = W c i.
  Definition ostate (out : option (list nd)) (W : nat -> list nat -> R) : Prop :=
    match out with Some o => holds o W | None => forall c i, W c i = 0 end.

  Lemma nth_error_F xs c : (c < g_len g)%nat -> nth_error (map (F xs) (seq 0 (g_len g))) c = Some (F xs c).
  Proof using.
    intros Hc. rewrite nth_error_map. rewrite (nth_error_nth' _ 0%nat) by (rewrite seq_length; exact Hc).
    rewrite seq_nth by exact Hc. reflexivity.
  Qed.

  Lemma zeros_ok xs : stencil dx pv xs ->
    exists o, fd_zeros g (map (F xs) (seq 0 (g_len g))) = Ok o /\ holds o (fun _ _ => 0).
  Proof using Hev Hpv.
    intros Hx. destruct (Hev xs Hx) as [_ Hs]. unfold fd_zeros.
    eexists. split.
    - apply mapM_map with (g := fun c => {| shp := full_shape c; val := fun _ => 0 |}).
      intros c Hc. apply in_seq in Hc. rewrite nth_error_F by lia. cbn [of_opt bind].
      unfold full_shape, fd_shape. rewrite Hs by lia. reflexivity.
    - split; [rewrite map_length, seq_length; reflexivity|]. intros c Hc.
      rewrite (nth_indep _ _ ((fun c => {| shp := full_shape c; val := fun _ => 0 |}) 0%nat)) by (rewrite map_length, seq_length; lia).
      rewrite (map_nth (fun c => {| shp := full_shape c; val := fun _ => 0 |})), seq_nth by exact Hc. auto.
  Qed.

  Lemma removelast_full c : removelast (full_shape c) = match sh c with [] => [1%nat] | s => s end.
  Proof using. unfold full_shape. apply removelast_last. Qed.

  Lemma add_ok j of o W : holds o W -> (j < n)%nat -> (1 <= fst of <= 3)%nat ->
    let h := fd_h dx (nth j pv 0) (fst of) in
    exists o', mapM (fd_add (map (F (with_entry pv j (nth j pv 0 + h))) (seq 0 (g_len g)))
                            (map (F (with_entry pv j (nth j pv 0 - h))) (seq 0 (g_len g))) j (snd of) h)
                    (combine (seq 0 (g_len g)) o) = Ok o' /\
      holds o' (fun c i => if Nat.eqb (last i 0%nat) j then W c i + contrib j of c (removelast i) else W c i).
  Proof using Hev Hpv.
    intros [Hl Ho] Hj Hk3 h.
    set (up := with_entry pv j (nth j pv 0 + h)). set (dn := with_entry pv j (nth j pv 0 - h)).
    destruct (in_stencil j of Hj Hk3) as [Hup Hdn]. destruct (Hev up Hup) as [_ Hsu].
    destruct (Hev dn Hdn) as [_ Hsd].
    set (G := fun co : nat * nd => {| shp := shp (snd co); val := fun i => if Nat.eqb (last i 0%nat) j
       then val (snd co) i + snd of * (elem (F up (fst co)) (removelast i) - elem (F dn (fst co)) (removelast i)) / (2 * h) else val (snd co) i |}).
    exists (map G (combine (seq 0 (g_len g)) o)). split.
    - apply mapM_map. intros [c x] Hin. apply (In_nth _ _ (0%nat, scalar 0)) in Hin as (k & Hk & E).
      rewrite combine_length, seq_length, Hl, Nat.min_id in Hk. rewrite combine_nth in E by (rewrite seq_length; lia).
      rewrite seq_nth in E by exact Hk. injection E as <- <-. cbn [Nat.add]. unfold fd_add.
      rewrite !nth_error_F by exact Hk. cbn [of_opt bind].
      destruct (nbin_fits Rminus (F up k) (F dn k) (sh k)) as (d & Hd & Hf & He & Hs1 & _ & _);
        [rewrite Hsu by exact Hk; apply fits_refl|rewrite Hsd by exact Hk; apply fits_refl|].
      unfold nsub. rewrite Hd. cbn [bind]. destruct (Ho k Hk) as [Hsh _]. rewrite Hsh, removelast_full.
      rewrite (Hs1 (Hsu k Hk)).
      assert (Hfit : fits (sh k) (match sh k with [] => [1%nat] | s => s end) = true) by (destruct (sh k); [reflexivity|apply fits_refl]).
      rewrite Hfit. unfold G. cbn [fst snd]. rewrite Hsh. f_equal. f_equal.
      apply functional_extensionality. intros i. rewrite He. reflexivity.
    - split; [rewrite map_length, combine_length, seq_length; lia|]. intros c Hc.
      rewrite (nth_indep _ _ (G (0%nat, scalar 0))) by (rewrite map_length, combine_length, seq_length; lia).
      rewrite map_nth, combine_nth by (rewrite seq_length; lia). rewrite seq_nth by exact Hc.
      destruct (Ho c Hc) as [Hsh Hv]. split; [exact Hsh|]. intros i. unfold G. cbn [fst snd val Nat.add].
      rewrite Hv. reflexivity.
  Qed.

  Definition points (j : nat) (of : nat * R) : calls :=
    let h := fd_h dx (nth j pv 0) (fst of) in
    [with_entry pv j (nth j pv 0 + h); with_entry pv j (nth j pv 0 - h)].

  Lemma once_ok j of out W l : ostate out W -> (j < n)%nat -> (1 <= fst of <= 3)%nat ->
    exists o', fd_once g vars pv dx (j, nth j pv 0) out of l = (Ok (Some o'), l ++ points j of) /\
      holds o' (fun c i => if Nat.eqb (last i 0%nat) j then W c i + contrib j of c (removelast i) else W c i).
  Proof using Hev Hpv.
    intros Ho Hj Hk3. pose proof (in_stencil j of Hj Hk3) as [Hlu Hld]. destruct of as [order factor]. cbn [fst] in Hlu, Hld. unfold fd_once. set (h := fd_h dx (nth j pv 0) order).
    rewrite (vadd_entry (g_params g) pv j h Hpv), (vsub_entry (g_params g) pv j h Hpv).
    set (up := with_entry pv j (nth j pv 0 + h)). set (dn := with_entry pv j (nth j pv 0 - h)).
    destruct (Hev up Hlu) as [Hcu _]. destruct (Hev dn Hld) as [Hcd _].
    unfold pbind at 1, pcall at 1. rewrite Hcu. unfold pbind at 1, pcall at 1. rewrite Hcd.
    assert (Hst : exists o, match out with Some o => Ok o | None => fd_zeros g (map (F up) (seq 0 (g_len g))) end = Ok o /\ holds o W).
    { destruct out as [o|]; [exists o; auto|]. destruct (zeros_ok up Hlu) as (o & E & [Hl Hh]). exists o. split; [exact E|].
      split; [exact Hl|]. intros c Hc. destruct (Hh c Hc) as [H1 H2]. split; [exact H1|]. intros i. rewrite H2, Ho. reflexivity. }
    destruct Hst as (o & E & Hh). unfold pbind at 1, ret at 1. rewrite E.
    destruct (add_ok j (order, factor) o W Hh Hj Hk3) as (o' & E' & Hh'). cbn [fst snd] in E'. fold h in E'. fold up dn in E'.
    unfold pbind, ret. rewrite E'. exists o'. split; [|exact Hh'].
    unfold points. cbn [fst]. fold h. fold up dn. rewrite <- app_assoc. reflexivity.
  Qed.

  Definition row (j : nat) (c : nat) (i : list nat) : R :=
    contrib j (1%nat, 3 / 2) c i + contrib j (2%nat, - (3 / 5)) c i + contrib j (3%nat, 1 / 10) c i.

  Lemma param_ok j out W l : ostate out W -> (j < n)%nat ->
    exists o', pfold (fd_once g vars pv dx (j, nth j pv 0)) out fd_orders l = (Ok (Some o'), l ++ flat_map (points j) fd_orders) /\
      holds o' (fun c i => if Nat.eqb (last i 0%nat) j then W c i + row j c (removelast i) else W c i).
  Proof using Hev Hpv.
    intros Ho Hj. unfold fd_orders. cbn [pfold].
    assert (K1 : (1 <= fst (1%nat, (3 / 2)%R) <= 3)%nat) by (cbn [fst]; clear; lia).
    assert (K2 : (1 <= fst (2%nat, (- (3 / 5))%R) <= 3)%nat) by (cbn [fst]; clear; lia).
    assert (K3 : (1 <= fst (3%nat, (1 / 10)%R) <= 3)%nat) by (cbn [fst]; clear; lia).
    destruct (once_ok j (1%nat, 3 / 2) out W l Ho Hj K1) as (o1 & E1 & H1). unfold pbind at 1. rewrite E1.
    destruct (once_ok j (2%nat, - (3 / 5)) (Some o1) _ (l ++ points j (1%nat, 3 / 2)) H1 Hj K2) as (o2 & E2 & H2). unfold pbind at 1. rewrite E2.
    destruct (once_ok j (3%nat, 1 / 10) (Some o2) _ ((l ++ points j (1%nat, 3 / 2)) ++ points j (2%nat, - (3 / 5))) H2 Hj K3) as (o3 & E3 & [H3 H3']).
    unfold pbind. rewrite E3. unfold ret. exists o3. split.
    - cbn [flat_map]. rewrite !app_assoc, app_nil_r. reflexivity.
    - split; [exact H3|]. intros c Hc. destruct (H3' c Hc) as [A B]. split; [exact A|]. intros i. rewrite B.
      unfold row. destruct (Nat.eqb (last i 0%nat) j); ring.
  Qed.

  Lemma loop_ok : forall js k out W l, (forall q, In q js -> q = (fst q, nth (fst q) pv 0) /\ (fst q < n)%nat) ->
    map fst js = seq k (List.length js) -> ostate out W ->
    exists out', pfold (fun out jv => pfold (fd_once g vars pv dx jv) out fd_orders) out js l =
        (Ok out', l ++ flat_map (fun j => flat_map (points j) fd_orders) (map fst js)) /\
      (js <> [] \/ out <> None -> out' <> None) /\
      ostate out' (fun c i => let j := last i 0%nat in
                     if (Nat.leb k j && Nat.ltb j (k + List.length js))%bool then W c i + row j c (removelast i) else W c i).
  Proof using Hev Hpv.
    induction js as [|[j v] js IH]; intros k out W l Hin Hk Ho.
    - exists out. split; [simpl; unfold ret; rewrite app_nil_r; reflexivity|]. split; [intros [H|H]; [exfalso; apply H; reflexivity|exact H]|].
      assert (E : (fun c i => let j := last i 0%nat in if (Nat.leb k j && Nat.ltb j (k + List.length (@nil (nat * R))))%bool then W c i + row j c (removelast i) else W c i) = W).
      { apply functional_extensionality; intros c. apply functional_extensionality; intros i. cbv zeta. simpl List.length. rewrite Nat.add_0_r.
        destruct (Nat.leb_spec k (last i 0%nat)), (Nat.ltb_spec (last i 0%nat) k); simpl; try reflexivity. lia. }
      rewrite E. exact Ho.
    - destruct (Hin (j, v) (or_introl eq_refl)) as [Ev Hj]. cbn [fst] in Ev, Hj. injection Ev as ->.
      simpl map in Hk. simpl List.length in Hk. cbn [seq] in Hk. injection Hk as -> Hk.
      destruct (param_ok k out W l Ho Hj) as (o1 & E1 & H1). cbn [pfold]. unfold pbind. rewrite E1.
      destruct (IH (S k) (Some o1) _ (l ++ flat_map (points k) fd_orders) (fun q Hq => Hin q (or_intror Hq)) Hk H1) as (out' & E2 & Hn & H2).
      exists out'. split; [rewrite E2; cbn [map flat_map fst]; rewrite <- app_assoc; reflexivity|].
      split; [intros _; apply Hn; right; discriminate|].
      match goal with H : ostate out' ?A |- ostate out' ?B => assert (E : A = B) end.
      { apply functional_extensionality; intros c. apply functional_extensionality; intros i. cbv zeta. simpl List.length.
        set (q := last i 0%nat).
        destruct (Nat.leb_spec (S k) q), (Nat.ltb_spec q (S k + List.length js)), (Nat.leb_spec k q), (Nat.ltb_spec q (k + S (List.length js))), (Nat.eqb_spec q k);
          cbn [andb]; try lia; try subst q; try reflexivity. rewrite <- e. reflexivity. }
      rewrite <- E. exact H2.
  Qed.
End Values.
