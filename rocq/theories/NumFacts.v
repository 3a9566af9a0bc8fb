(** * NumFacts: proofs about NumPy.v *)
From Coq Require Import Reals List Arith Lia Lra FunctionalExtensionality.
From Coquelicot Require Import Coquelicot.
From Verif Require Import PyBase PyFacts NumPy.
Local Open Scope R_scope.

Lemma in_indices s i : In i (indices s) <-> Forall2 lt i s.
Proof.
  revert i. induction s as [|d s IH]; intros i; simpl.
  - split; [intros [<-|[]]; constructor|inversion 1; auto].
  - rewrite in_flat_map. split.
    + intros (o & Ho & Hi). apply in_map_iff in Hi as (j & <- & Hj). apply in_seq in Hj. constructor; [lia|apply IH; exact Ho].
    + inversion 1; subst. exists l. split; [apply IH; assumption|]. apply in_map_iff. exists x. split; [reflexivity|apply in_seq; lia].
Qed.
Lemma indices_length s i : In i (indices s) -> List.length i = List.length s.
Proof. intros H. apply in_indices in H. eapply Forall2_len; exact H. Qed.

Lemma bidx_length s i : List.length (bidx s i) = List.length s.
Proof. revert i; induction s as [|d s IH]; intros [|j i]; simpl; auto. Qed.
Lemma bidx_id s i : In i (indices s) -> bidx s i = i.
Proof.
  rewrite in_indices. induction 1 as [|j d i s Hlt _ IH]; simpl; [reflexivity|]. rewrite IH.
  destruct (Nat.eqb_spec d 1); [f_equal; lia|reflexivity].
Qed.
Lemma elem_val a i : In i (indices (shp a)) -> elem a i = val a i.
Proof. intros H. unfold elem. rewrite bidx_id by exact H. reflexivity. Qed.
Lemma bidx_app s t i : bidx (s ++ t) i = bidx s i ++ bidx t (skipn (List.length s) i).
Proof. revert i; induction s as [|d s IH]; intros [|j i]; simpl; auto. - rewrite IH, skipn_nil; reflexivity. - rewrite IH; reflexivity. Qed.
Lemma bidx_more s i j : (List.length s <= List.length i)%nat -> bidx s (i ++ j) = bidx s i.
Proof. revert i; induction s as [|d s IH]; intros [|k i] Hl; simpl in *; auto; [lia|]. rewrite IH by lia; reflexivity. Qed.
Lemma elem_more a i j : (List.length (shp a) <= List.length i)%nat -> elem a (i ++ j) = elem a i.
Proof. intros H. unfold elem. rewrite bidx_more by exact H. reflexivity. Qed.
Lemma elem_scalar x i : elem (scalar x) i = x. Proof. reflexivity. Qed.
Lemma elem_newaxis a i : elem (newaxis a) i = elem a i.
Proof.
  unfold elem, newaxis; simpl. rewrite bidx_app, firstn_app, bidx_length, Nat.sub_diag, firstn_all2 by (rewrite bidx_length; lia).
  rewrite firstn_O, app_nil_r. reflexivity.
Qed.
Lemma elem_npmap f a i : elem (npmap f a) i = f (elem a i). Proof. reflexivity. Qed.

Lemma fits_refl s : fits s s = true.
Proof. induction s; simpl; auto. rewrite Nat.eqb_refl; auto. Qed.
Lemma fits_length s t : fits s t = true -> (List.length s <= List.length t)%nat.
Proof. revert t; induction s as [|d s IH]; intros [|e t] H; simpl in *; try discriminate; [lia|lia|]. apply andb_prop in H as [_ H]. apply IH in H; lia. Qed.
Lemma fits_bshape_r s t : fits s t = true -> bshape s t = Some t.
Proof.
  revert t; induction s as [|d s IH]; intros [|e t] H; simpl in *; try discriminate; auto.
  apply andb_prop in H as [H1 H2]. rewrite (IH _ H2). destruct (Nat.eqb_spec d e); [subst; reflexivity|]. simpl in H1. rewrite H1; reflexivity.
Qed.
Lemma fits_bshape_l s t : fits s t = true -> bshape t s = Some t.
Proof.
  revert t; induction s as [|d s IH]; intros [|e t] H; simpl in *; try discriminate; auto.
  apply andb_prop in H as [H1 H2]. rewrite (IH _ H2). destruct (Nat.eqb_spec d e); [subst; rewrite Nat.eqb_refl; reflexivity|]. simpl in H1.
  destruct (Nat.eqb_spec e d); [congruence|]. rewrite H1. apply Nat.eqb_eq in H1. destruct (Nat.eqb_spec e 1); [congruence|reflexivity].
Qed.
Lemma fits_trans s t u : fits s t = true -> fits t u = true -> fits s u = true.
Proof.
  revert t u; induction s as [|d s IH]; intros [|e t] [|f u] H1 H2; simpl in *; try discriminate; auto.
  apply andb_prop in H1 as [H1 H1']. apply andb_prop in H2 as [H2 H2']. rewrite (IH _ _ H1' H2'), andb_true_r.
  apply orb_prop in H1 as [H1|H1]; [apply Nat.eqb_eq in H1; subst; exact H2|rewrite H1; apply orb_true_r].
Qed.
Lemma fits_ones s t k n : fits s t = true -> fits (s ++ repeat 1%nat k) (t ++ repeat n k) = true.
Proof.
  revert t; induction s as [|d s IH]; intros t H; simpl in *.
  - clear H. revert t; induction k as [|k IHk]; intros t; [reflexivity|].
    destruct t as [|e t].
    + simpl. rewrite orb_true_r. simpl. apply (IHk []).
    + change (repeat 1%nat (S k)) with (1%nat :: repeat 1%nat k).
      change ((e :: t) ++ repeat n (S k)) with (e :: (t ++ [n] ++ repeat n k)).
      cbn [fits]. rewrite Nat.eqb_refl, orb_true_r. rewrite andb_true_l, app_assoc. apply IHk.
  - destruct t as [|e t]; [discriminate|]. simpl. apply andb_prop in H as [H1 H2]. rewrite H1. simpl. apply IH; exact H2.
Qed.
(** broadcasting twice is broadcasting once *)
Lemma bidx_bidx s t i : fits s t = true -> bidx s (bidx t i) = bidx s i.
Proof.
  revert t i; induction s as [|d s IH]; intros [|e t] i H; simpl in *; try discriminate; auto.
  apply andb_prop in H as [H1 H2]. destruct i as [|j i]; simpl.
  - rewrite (IH _ _ H2). destruct (Nat.eqb d 1); reflexivity.
  - rewrite (IH _ _ H2). f_equal. destruct (Nat.eqb_spec d 1); [reflexivity|]. rewrite orb_false_r in H1. apply Nat.eqb_eq in H1. subst.
    destruct (Nat.eqb_spec e 1); congruence.
Qed.
Lemma elem_bidx a s i : fits (shp a) s = true -> elem a (bidx s i) = elem a i.
Proof. intros H. unfold elem. rewrite bidx_bidx by exact H. reflexivity. Qed.

Lemma fits_cons d s e t : fits (d :: s) (e :: t) = true <-> (d = e \/ d = 1%nat) /\ fits s t = true.
Proof. simpl. rewrite andb_true_iff, orb_true_iff, !Nat.eqb_eq. reflexivity. Qed.
(** An elementwise operation whose operands fit a shape *)
Lemma nbin_fits f a b S : fits (shp a) S = true -> fits (shp b) S = true ->
  exists c, nbin f a b = Ok c /\ fits (shp c) S = true /\ (forall i, elem c i = f (elem a i) (elem b i)) /\
    (shp a = S -> shp c = S) /\ (shp b = S -> shp c = S) /\ ((List.length (shp c) <= Nat.max (List.length (shp a)) (List.length (shp b)))%nat).
Proof.
  intros Ha Hb. unfold nbin.
  assert (H : exists u, bshape (shp a) (shp b) = Some u /\ fits u S = true /\ fits (shp a) u = true /\ fits (shp b) u = true /\ (List.length u <= Nat.max (List.length (shp a)) (List.length (shp b)))%nat).
  { revert S Ha Hb. generalize (shp a) (shp b). clear. intros s; induction s as [|d s IH]; intros t S Ha Hb.
    - simpl. exists t. split; [reflexivity|]. split; [exact Hb|]. split; [reflexivity|]. split; [apply fits_refl|lia].
    - destruct t as [|e t].
      + simpl. exists (d :: s). split; [reflexivity|]. split; [exact Ha|]. split; [apply (fits_refl (d :: s))|]. split; [reflexivity|simpl; lia].
      + destruct S as [|g S]; [discriminate|]. apply fits_cons in Ha as [Ha Ha']. apply fits_cons in Hb as [Hb Hb'].
        destruct (IH _ _ Ha' Hb') as (u & Hu & H1 & H2 & H3 & H4). simpl bshape. rewrite Hu.
        destruct (Nat.eqb_spec d e) as [E1|E1].
        * subst. exists (e :: u). split; [reflexivity|]. rewrite !fits_cons. simpl List.length. repeat split; auto; lia.
        * destruct (Nat.eqb_spec d 1) as [E2|E2].
          -- subst. exists (e :: u). split; [reflexivity|]. rewrite !fits_cons. simpl List.length. repeat split; auto; lia.
          -- destruct (Nat.eqb_spec e 1) as [E3|E3].
             ++ subst. exists (d :: u). split; [reflexivity|]. rewrite !fits_cons. simpl List.length. repeat split; auto; lia.
             ++ exfalso. destruct Ha, Hb; congruence. }
  destruct H as (u & Hu & HuS & Hau & Hbu & Hlen). rewrite Hu. eexists. split; [reflexivity|]. simpl. split; [exact HuS|]. split.
  - intros i. unfold elem at 1. cbn [val shp]. change (f (elem a (bidx u i)) (elem b (bidx u i)) = f (elem a i) (elem b i)). rewrite !elem_bidx by assumption. reflexivity.
  - split; [|split; [|exact Hlen]]; intros <-.
    + rewrite (fits_bshape_l _ _ Hb) in Hu. congruence.
    + rewrite (fits_bshape_r _ _ Ha) in Hu. congruence.
Qed.

(** ** Sums *)
Lemma Rsum_ext {X} (f g : X -> R) l : (forall x, In x l -> f x = g x) -> Rsum (map f l) = Rsum (map g l).
Proof. induction l; simpl; intros H; auto. rewrite H, IHl by auto. reflexivity. Qed.
Lemma Rsum_app l m : Rsum (l ++ m) = Rsum l + Rsum m.
Proof. induction l; simpl; [lra|rewrite IHl; lra]. Qed.
Lemma Rsum_scal {X} c (f : X -> R) l : Rsum (map (fun x => c * f x) l) = c * Rsum (map f l).
Proof. induction l; simpl; [lra|rewrite IHl; lra]. Qed.
Lemma Rsum_plus {X} (f g : X -> R) l : Rsum (map (fun x => f x + g x) l) = Rsum (map f l) + Rsum (map g l).
Proof. induction l; simpl; [lra|rewrite IHl; lra]. Qed.
Lemma Rsum_nonneg {X} (f : X -> R) l : (forall x, In x l -> 0 <= f x) -> 0 <= Rsum (map f l).
Proof. induction l; simpl; intros H; [lra|]. pose proof (H a (or_introl eq_refl)). specialize (IHl (fun x Hx => H x (or_intror Hx))). lra. Qed.
Lemma Rsum_zero {X} (f : X -> R) l : (forall x, In x l -> 0 <= f x) -> Rsum (map f l) = 0 -> forall x, In x l -> f x = 0.
Proof.
  induction l; simpl; intros H Hs x Hx; [contradiction|].
  pose proof (H a (or_introl eq_refl)). pose proof (Rsum_nonneg f l (fun y Hy => H y (or_intror Hy))).
  destruct Hx as [->|Hx]; [lra|]. apply IHl; [auto|lra|exact Hx].
Qed.
Lemma Rsum_const0 {X} (l : list X) : Rsum (map (fun _ => 0) l) = 0.
Proof. induction l; simpl; [reflexivity|lra]. Qed.
Lemma Rsum_swap {X Y} (f : X -> Y -> R) l m :
  Rsum (map (fun x => Rsum (map (f x) m)) l) = Rsum (map (fun y => Rsum (map (fun x => f x y) l)) m).
Proof.
  induction l; simpl; [symmetry; apply Rsum_const0|]. rewrite IHl. symmetry. rewrite <- Rsum_plus. reflexivity.
Qed.
Lemma Rsum_perm l m : Permutation l m -> Rsum l = Rsum m.
Proof. induction 1; simpl; lra. Qed.
Lemma is_derive_Rsum {X} (F : X -> R -> R) (d : X -> R) (t0 : R) l :
  (forall x, In x l -> is_derive (F x) t0 (d x)) -> is_derive (fun t => Rsum (map (fun x => F x t) l)) t0 (Rsum (map d l)).
Proof.
  induction l as [|a l IH]; simpl; intros H.
  - exact (@is_derive_const R_AbsRing R_NormedModule 0 t0).
  - exact (is_derive_plus (F a) (fun t => Rsum (map (fun x => F x t) l)) t0 (d a) _ (H a (or_introl eq_refl)) (IH (fun x Hx => H x (or_intror Hx)))).
Qed.

Lemma np_sum_val a f : (forall i, In i (indices (shp a)) -> val a i = f i) -> np_sum a = Rsum (map f (indices (shp a))).
Proof. intros H. unfold np_sum. apply Rsum_ext. exact H. Qed.
Lemma np_sum_keep_app a S t : shp a = S ++ t ->
  shp (np_sum_keep (List.length t) a) = t /\
  forall j, val (np_sum_keep (List.length t) a) j = Rsum (map (fun i => val a (i ++ j)) (indices S)).
Proof.
  intros H. unfold np_sum_keep. simpl. rewrite H, app_length, Nat.add_sub.
  rewrite skipn_app, skipn_all, Nat.sub_diag. simpl. rewrite firstn_app, firstn_all, Nat.sub_diag, firstn_O, app_nil_r. auto.
Qed.

(** ** squeeze and atleast_nd of vectors and square matrices *)
Lemma atleast_1d_squeeze a n : shp a = [n] ->
  shp (atleast_1d (squeeze a)) = [n] /\ forall k, (k < n)%nat -> val (atleast_1d (squeeze a)) [k] = val a [k].
Proof.
  destruct a as [s f]. simpl. intros ->. unfold atleast_1d, squeeze; simpl. unfold is1. destruct (Nat.eqb_spec n 1); simpl.
  - subst. split; [reflexivity|]. intros k Hk. assert (k = 0)%nat as -> by lia. reflexivity.
  - split; reflexivity.
Qed.
Lemma atleast_2d_squeeze a n : shp a = [n; n] ->
  shp (atleast_2d (squeeze a)) = [n; n] /\
  forall k l, (k < n)%nat -> (l < n)%nat -> val (atleast_2d (squeeze a)) [k; l] = val a [k; l].
Proof.
  destruct a as [s f]. simpl. intros ->. unfold atleast_2d, squeeze; simpl. unfold is1. destruct (Nat.eqb_spec n 1); simpl.
  - subst. split; [reflexivity|]. intros k l Hk Hl. assert (k = 0 /\ l = 0)%nat as [-> ->] by lia. reflexivity.
  - split; reflexivity.
Qed.

(** .. with further axes of length one *)
Lemma unsq_ones d s i : unsq (repeat 1%nat d ++ s) i = repeat 0%nat d ++ unsq s i.
Proof. induction d as [|d IH]; [reflexivity|]. cbn. rewrite IH. reflexivity. Qed.
Lemma filter_ones d s : filter (fun d => negb (is1 d)) (repeat 1%nat d ++ s) = filter (fun d => negb (is1 d)) s.
Proof. induction d as [|d IH]; [reflexivity|exact IH]. Qed.
Lemma squeeze_ones a d s : shp a = repeat 1%nat d ++ s ->
  squeeze a = squeeze {| shp := s; val := fun i => val a (repeat 0%nat d ++ i) |}.
Proof.
  intros H. unfold squeeze. rewrite H, filter_ones. cbn [shp val]. f_equal. apply functional_extensionality.
  intros i. rewrite unsq_ones. reflexivity.
Qed.

Lemma elem_expand_last a i : elem (expand_last a) i = elem a (tl i).
Proof. unfold elem, expand_last; simpl. destruct i; reflexivity. Qed.
