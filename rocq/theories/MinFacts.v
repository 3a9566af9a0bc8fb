(** * MinFacts: proofs about Minimizer.v. *)
From Coq Require Import Reals Lra.
From Verif Require Import PyBase PyFacts Signature SignatureFacts Expr NumPy NumFacts Model Objective Minimizer MinSpec.
Local Open Scope R_scope.

(** ** masks *)
Lemma positions_cons b mask : positions (b :: mask) = (if b then [0%nat] else []) ++ map S (positions mask).
Proof.
  unfold positions. simpl List.length. change (seq 0 (S (List.length mask))) with (0%nat :: seq 1 (List.length mask)). rewrite <- seq_shift.
  assert (H : forall l, filter (fun k => nth k (b :: mask) false) (map S l) = map S (filter (fun k => nth k mask false) l)).
  { induction l as [|a l IH]; [reflexivity|]. cbn [filter map]. change (nth (S a) (b :: mask) false) with (nth a mask false). destruct (nth a mask false); cbn [map]; rewrite IH; reflexivity. }
  cbn [filter]. rewrite H. change (nth 0 (b :: mask) false) with b. destruct b; reflexivity.
Qed.
Lemma positions_spec {X} (f : X -> bool) l : map (fun k => nth_error l k) (positions (map f l)) = map Some (filter f l).
Proof.
  induction l as [|a l IH]; [reflexivity|]. cbn [map]. rewrite positions_cons, map_app, map_map. cbn [nth_error]. rewrite IH. cbn [filter]. destruct (f a); reflexivity.
Qed.
Lemma positions_length {X} (f : X -> bool) l : List.length (positions (map f l)) = List.length (filter f l).
Proof. rewrite <- (map_length Some (filter f l)), <- positions_spec, map_length. reflexivity. Qed.
Lemma positions_nth {X} (f : X -> bool) l i p : nth_error (filter f l) i = Some p -> nth_error l (nth i (positions (map f l)) 0%nat) = Some p.
Proof.
  intros H. pose proof (positions_spec f l) as Hs. apply (map_nth_error Some) in H. rewrite <- Hs in H.
  assert (Hi : (i < List.length (positions (map f l)))%nat) by (apply nth_error_Some; intros Hn; rewrite (proj2 (nth_error_None _ _)) in H; [discriminate|]; rewrite map_length; apply nth_error_None; exact Hn).
  erewrite map_nth_error in H by (apply nth_error_nth'; exact Hi). injection H as H. exact H.
Qed.
Lemma nodup_nth {X} (l : list X) i j p : NoDup l -> nth_error l i = Some p -> nth_error l j = Some p -> i = j.
Proof. intros Hn Hi Hj. eapply NoDup_nth_error; [exact Hn|apply nth_error_Some; congruence|congruence]. Qed.

Lemma free_mask_eq h ps : free_mask (filter (fun p => p_fixed (h p)) ps) ps = map (fun p => negb (p_fixed (h p))) ps.
Proof.
  unfold free_mask. apply map_ext_in. intros p Hp. f_equal. destruct (p_fixed (h p)) eqn:E.
  - apply inb_In. apply filter_In; auto.
  - apply inb_false. intros H. apply filter_In in H as [_ H]. congruence.
Qed.

Section Free.
  Context (h : heap) (ps : list sym).
  Let fixed := filter (fun p => p_fixed (h p)) ps.
  Lemma mask_length : List.length (free_mask fixed ps) = List.length ps.
  Proof using. unfold free_mask. apply map_length. Qed.
  Lemma mask_count : List.length (positions (free_mask fixed ps)) = nfree h ps.
  Proof using. unfold fixed. rewrite free_mask_eq, positions_length. reflexivity. Qed.
  Lemma mask_position p i k : NoDup ps -> free_at h ps p i k -> nth i (positions (free_mask fixed ps)) 0%nat = k.
  Proof using.
    intros Hn [Hi Hk]. unfold fixed. rewrite free_mask_eq. pose proof (positions_nth _ _ _ _ Hi) as H. exact (nodup_nth ps _ _ _ Hn H Hk).
  Qed.

  Lemma resize_jac_ok (j : fn) x a : j x = Ok a -> gradient_shaped (List.length ps) a -> NoDup ps ->
    exists g, resize_jac fixed ps j x = Ok g /\ shp g = [nfree h ps] /\
      forall p i k, free_at h ps p i k -> val g [i] = gradient_entry a k.
  Proof using.
    intros Ha [d Hs] Hn. unfold resize_jac. rewrite Ha. cbn [bind]. rewrite (squeeze_ones a d _ Hs).
    assert (Hent : forall k, gradient_entry a k = val a (repeat 0%nat d ++ [k])) by (intros k; unfold gradient_entry; rewrite Hs, app_length, repeat_length; cbn [List.length]; rewrite Nat.add_sub; reflexivity).
    destruct (atleast_1d_squeeze {| shp := [List.length ps]; val := fun i => val a (repeat 0%nat d ++ i) |} _ eq_refl) as [Hs1 Hv1]. unfold index_first. rewrite Hs1. cbn [last]. rewrite mask_length, Nat.eqb_refl.
    eexists. split; [reflexivity|]. cbn [shp val removelast app]. split; [rewrite mask_count; reflexivity|].
    intros p i k Hp. cbn [last removelast app]. rewrite (mask_position p i k Hn Hp). rewrite Hv1; [rewrite Hent; reflexivity|]. apply nth_error_Some. destruct Hp as [_ Hk]. congruence.
  Qed.

  (** not so for a vector valued function: one row per free parameter remains *)
  Lemma resize_jac_vector (j : fn) x a M : j x = Ok a -> shp a = [M; List.length ps] -> M <> 1%nat -> List.length ps <> 1%nat -> NoDup ps ->
    exists g, resize_jac fixed ps j x = Ok g /\ shp g = [M; nfree h ps] /\
      forall p i k d, free_at h ps p i k -> val g [d; i] = val a [d; k].
  Proof using.
    intros Ha Hs HM Hl Hn. unfold resize_jac. rewrite Ha. cbn [bind].
    assert (Hq : atleast_1d (squeeze a) = {| shp := [M; List.length ps]; val := fun i => val a (unsq [M; List.length ps] i) |}).
    { unfold squeeze. rewrite Hs. cbn [filter]. unfold is1. rewrite (proj2 (Nat.eqb_neq _ _) HM), (proj2 (Nat.eqb_neq _ _) Hl). reflexivity. }
    rewrite Hq. unfold index_first. cbn [shp last]. rewrite mask_length, Nat.eqb_refl.
    eexists. split; [reflexivity|]. cbn [shp val removelast app]. split; [rewrite mask_count; reflexivity|].
    intros p i k d Hp. cbn [last removelast app]. rewrite (mask_position p i k Hn Hp). cbn [unsq]. unfold is1. rewrite (proj2 (Nat.eqb_neq _ _) HM), (proj2 (Nat.eqb_neq _ _) Hl). reflexivity.
  Qed.

  Lemma resize_minpack_ok (j : fn) x a M : j x = Ok a -> shp a = [List.length ps; M] -> NoDup ps ->
    exists g, resize_jac_minpack fixed ps j x = Ok g /\ shp g = [nfree h ps; M] /\
      forall p i k d, free_at h ps p i k -> val g [i; d] = val a [k; d].
  Proof using.
    intros Ha Hs Hn. unfold resize_jac_minpack. rewrite Ha. cbn [bind].
    assert (Hat : atleast_2d a = a) by (unfold atleast_2d; rewrite Hs; reflexivity). rewrite Hat.
    unfold index_second. rewrite Hs, mask_length, Nat.eqb_refl.
    eexists. split; [reflexivity|]. cbn [shp val]. split; [rewrite mask_count; reflexivity|].
    intros p i k d Hp. cbn [hd nth]. rewrite (mask_position p i k Hn Hp). reflexivity.
  Qed.

  (** the Hessian: the diagonal, as a row *)
  Lemma resize_hess_diag (f : fn) x a : f x = Ok a -> hessian_shaped (List.length ps) a -> NoDup ps ->
    exists g, resize_hess fixed ps f x = Ok g /\ shp g = [nfree h ps; 1%nat] /\
      forall p i k, free_at h ps p i k -> val g [i; 0%nat] = hessian_entry a k k.
  Proof using.
    intros Ha [d Hs] Hn. unfold resize_hess. rewrite Ha. cbn [bind]. rewrite (squeeze_ones a d _ Hs).
    assert (Hent : forall k, hessian_entry a k k = val a (repeat 0%nat d ++ [k; k])) by (intros k; unfold hessian_entry; rewrite Hs, app_length, repeat_length; cbn [List.length]; rewrite Nat.add_sub; reflexivity).
    destruct (atleast_2d_squeeze {| shp := [List.length ps; List.length ps]; val := fun i => val a (repeat 0%nat d ++ i) |} _ eq_refl) as [Hs1 Hv1]. unfold index_both. rewrite Hs1, mask_length, Nat.eqb_refl. cbn [andb bind].
    eexists. split; [reflexivity|]. cbn [atleast_2d shp newaxis app]. split; [rewrite mask_count; reflexivity|].
    intros p i k Hp. cbn [val newaxis shp List.length firstn hd atleast_2d]. rewrite (mask_position p i k Hn Hp). destruct Hp as [_ Hk].
    assert (Hlt : (k < List.length ps)%nat) by (apply nth_error_Some; congruence). rewrite Hent. apply Hv1; exact Hlt.
  Qed.
End Free.

(** ** what is handed to scipy *)
Lemma init_fields h cls ps jac hess cons m : minimizer_init h cls ps jac hess cons = Ok m ->
  mi_class m = cls /\ mi_parameters m = ps /\ mi_fixed m = filter (fun p => p_fixed (h p)) ps /\ mi_params m = free_of_list h ps /\
  mi_guess m = None /\ mi_jacobian m = (if is_gradient cls then jac else None) /\ mi_hessian m = (if is_hessian cls then hess else None).
Proof. unfold minimizer_init. intros H. apply bind_Ok in H as (cs & _ & H). inv H. repeat (split; [reflexivity|]). reflexivity. Qed.

Lemma problem_vectors h cls ps jac hess cons m uj uh : minimizer_init h cls ps jac hess cons = Ok m ->
  let pb := execute_problem h m uj uh in
  pb_x0 pb = (match cls with DifferentialEvolution => None | _ => Some (map (fun p => p_value (h p)) (free_of_list h ps)) end) /\
  pb_lower pb = (if is_bounded cls then Some (map (fun p => p_min (h p)) (free_of_list h ps)) else None) /\
  pb_upper pb = (if is_bounded cls then Some (map (fun p => p_max (h p)) (free_of_list h ps)) else None).
Proof.
  intros H. destruct (init_fields _ _ _ _ _ _ _ H) as (Hc & Hp & Hf & Hq & Hg & Hj & Hh).
  unfold execute_problem, minpack_bounds, bounds, initial_guesses. rewrite Hc, Hq, Hg, Hj, Hh.
  destruct cls; cbn; rewrite ?map_map; try (split; [reflexivity|split; reflexivity]).
  destruct (trust_strategy jac hess) as [aj ah]. cbn. rewrite ?map_map. split; [reflexivity|split; reflexivity].
Qed.

Lemma problem_jac h cls ps j hess cons m : minimizer_init h cls ps (Some j) hess cons = Ok m -> is_gradient cls = true ->
  pb_jac (execute_problem h m DNone DNone) = DFun (match cls with MINPACK => resize_jac_minpack (filter (fun p => p_fixed (h p)) ps) ps j
                                                              | _ => resize_jac (filter (fun p => p_fixed (h p)) ps) ps j end).
Proof.
  intros H Hgr. destruct (init_fields _ _ _ _ _ _ _ H) as (Hc & Hp & Hf & _ & _ & Hj & Hh).
  unfold execute_problem, wrapped_jacobian. rewrite Hc, Hj, Hp, Hf. destruct cls; try discriminate; cbn; try reflexivity.
  rewrite Hh. cbn. destruct hess; reflexivity.
Qed.
Lemma problem_hess h ps j f cons m : minimizer_init h TrustConstr ps (Some j) (Some f) cons = Ok m ->
  pb_hess (execute_problem h m DNone DNone) = DFun (resize_hess (filter (fun p => p_fixed (h p)) ps) ps f).
Proof.
  intros H. destruct (init_fields _ _ _ _ _ _ _ H) as (Hc & Hp & Hf & _ & _ & Hj & Hh).
  unfold execute_problem, wrapped_hessian. rewrite Hc, Hj, Hp, Hf, Hh. reflexivity.
Qed.

(** ** results *)
Lemma pack_ok h : forall ps x, List.length x = nfree h ps ->
  exists popt, pack_output h ps x = Ok popt /\ List.length popt = List.length ps /\
    (forall k p, nth_error ps k = Some p -> p_fixed (h p) = true -> nth_error popt k = Some (p_value (h p))) /\
    (forall p i k, NoDup ps -> free_at h ps p i k -> nth_error popt k = nth_error x i).
Proof.
  induction ps as [|q ps IH]; intros x Hx.
  - exists []. split; [reflexivity|]. split; [reflexivity|]. split; [intros k p Hk; destruct k; discriminate|]. intros p i k _ [_ Hk]. destruct k; discriminate.
  - unfold nfree, free_of_list in Hx. simpl in Hx |- *. destruct (p_fixed (h q)) eqn:E; simpl in Hx.
    + destruct (IH x Hx) as (popt & Hp & Hl & Hf & Hfr). rewrite Hp. simpl. eexists. split; [reflexivity|]. split; [simpl; lia|]. split.
      * intros [|k] p Hk Hfx; simpl in *; [congruence|apply Hf; assumption].
      * intros p i k Hn [Hi Hk]. unfold free_of_list in Hi. simpl in Hi. rewrite E in Hi. simpl in Hi. destruct k as [|k]; simpl in *.
        { exfalso. inv Hk. apply nth_error_In in Hi. apply filter_In in Hi as [_ Hi]. rewrite E in Hi. discriminate. }
        inv Hn. apply (Hfr p i k); [assumption|split; assumption].
    + destruct x as [|v x]; [discriminate|]. simpl in Hx. injection Hx as Hx. destruct (IH x Hx) as (popt & Hp & Hl & Hf & Hfr). rewrite Hp. simpl. eexists. split; [reflexivity|]. split; [simpl; lia|]. split.
      * intros [|k] p Hk Hfx; simpl in *; [congruence|apply Hf; assumption].
      * intros p i k Hn [Hi Hk]. unfold free_of_list in Hi. simpl in Hi. rewrite E in Hi. simpl in Hi. inv Hn. destruct k as [|k], i as [|i]; simpl in *.
        -- reflexivity.
        -- exfalso. inv Hk. apply nth_error_In in Hi. apply filter_In in Hi as [Hi _]. contradiction.
        -- exfalso. inv Hi. apply nth_error_In in Hk. contradiction.
        -- apply (Hfr p i k); [assumption|split; assumption].
Qed.
Lemma pack_short h : forall ps x, (List.length x < nfree h ps)%nat -> pack_output h ps x = Raise StopIteration.
Proof.
  induction ps as [|q ps IH]; intros x Hx; unfold nfree, free_of_list in *; simpl in *; [lia|]. destruct (p_fixed (h q)); simpl in Hx.
  - rewrite IH by exact Hx. reflexivity.
  - destruct x as [|v x]; [reflexivity|]. simpl in Hx. rewrite IH by lia. reflexivity.
Qed.
Lemma result_lookup ps popt k p v : NoDup (map sname ps) -> nth_error ps k = Some p -> nth_error popt k = Some v ->
  dget (result_params ps popt) (sname p) = Some v.
Proof.
  intros Hn Hp Hv. unfold result_params.
  rewrite dict_of_nodup.
  - eapply dget_combine_nth; [exact Hn|apply map_nth_error; exact Hp|exact Hv].
  - clear -Hn. revert popt. induction (map sname ps) as [|a l IH]; intros [|b popt]; simpl; try constructor; inv Hn; [|apply IH; assumption].
    intros H. apply H1. apply in_map_iff in H as ([c d] & <- & H). apply in_combine_l in H. exact H.
Qed.
Lemma result_values ps popt : NoDup (map sname ps) -> List.length popt = List.length ps -> map snd (result_params ps popt) = popt.
Proof.
  intros Hn Hl. unfold result_params. rewrite dict_of_nodup.
  - rewrite <- (map_length sname) in Hl. clear Hn. revert popt Hl. induction (map sname ps) as [|a l IH]; intros [|b popt] Hl; simpl in *; try lia; [reflexivity|]. f_equal. apply IH. lia.
  - clear Hl. revert popt. induction (map sname ps) as [|a l IH]; intros [|b popt]; simpl; try constructor; inv Hn; [|apply IH; assumption].
    intros H. apply H1. apply in_map_iff in H as ([c d] & <- & H). apply in_combine_l in H. exact H.
Qed.
Lemma pack_all_free h ps x : (forall p, In p ps -> p_fixed (h p) = false) -> List.length x = List.length ps -> pack_output h ps x = Ok x.
Proof.
  revert x. induction ps as [|p ps IH]; intros [|v x] Hf Hl; simpl in *; try lia; [reflexivity|]. rewrite (Hf p (or_introl eq_refl)). rewrite IH; [reflexivity| |lia]. auto.
Qed.

(** ** chains: names *)
Lemma count_app l m n : count_of (l ++ m) n = (count_of l n + count_of m n)%nat.
Proof. unfold count_of. rewrite filter_app, app_length. reflexivity. Qed.
Lemma count_one m n : count_of [m] n = if eqb n m then 1%nat else 0%nat.
Proof. unfold count_of. simpl. destruct (eqb n m); reflexivity. Qed.
Lemma name_loop_ext c1 c2 l : (forall n, In n l -> c1 n = c2 n) -> name_loop c1 l = name_loop c2 l.
Proof.
  revert c1 c2. induction l as [|n l IH]; intros c1 c2 H; simpl; [reflexivity|]. rewrite (H n) by (left; reflexivity). f_equal. apply IH.
  intros s Hs. destruct (eqb s n); rewrite (H s) by (right; exact Hs); reflexivity.
Qed.
Lemma name_loop_rev l : name_loop (count_of l) (rev l) = rev (map (fun i => match nth_error l i with Some n => chain_name n (occurrence l i) | None => "" end) (seq 0 (List.length l))).
Proof.
  induction l as [|n l IH] using rev_ind; [reflexivity|]. rewrite rev_app_distr. cbn [rev app name_loop].
  rewrite app_length. cbn [List.length]. rewrite Nat.add_1_r, seq_S, map_app, rev_app_distr. cbn [map rev app Nat.add]. f_equal.
  - rewrite nth_error_app2, Nat.sub_diag by lia. cbn [nth_error]. unfold occurrence. rewrite nth_error_app2, Nat.sub_diag by lia. cbn [nth_error].
    rewrite firstn_all2 by (rewrite app_length; cbn [List.length]; lia). reflexivity.
  - etransitivity; [apply name_loop_ext|etransitivity; [exact IH|]].
    + intros s Hs. rewrite !count_app, !count_one. destruct (eqb s n); lia.
    + f_equal. apply map_ext_in. intros i Hi. apply in_seq in Hi. rewrite nth_error_app1 by lia.
      destruct (nth_error l i) as [m|] eqn:Em; [|reflexivity]. f_equal. unfold occurrence. rewrite nth_error_app1 by lia. rewrite Em. rewrite firstn_app.
      replace (S i - List.length l)%nat with 0%nat by lia. simpl firstn at 2. rewrite app_nil_r. reflexivity.
Qed.
Lemma chain_names_eq l : chain_names l = map (fun i => match nth_error l i with Some n => chain_name n (occurrence l i) | None => "" end) (seq 0 (List.length l)).
Proof. unfold chain_names. rewrite name_loop_rev, rev_involutive. reflexivity. Qed.
Lemma chain_names_nth l i n : nth_error l i = Some n -> nth_error (chain_names l) i = Some (chain_name n (occurrence l i)).
Proof.
  intros H. rewrite chain_names_eq. assert (Hi : (i < List.length l)%nat) by (apply nth_error_Some; congruence).
  erewrite map_nth_error by (rewrite nth_error_nth' with (d := 0%nat) by (rewrite seq_length; exact Hi); rewrite seq_nth by exact Hi; reflexivity). simpl. rewrite H. reflexivity.
Qed.
Lemma chain_names_length l : List.length (chain_names l) = List.length l.
Proof. rewrite chain_names_eq, map_length, seq_length. reflexivity. Qed.

Lemma occurrence_pos l i n : nth_error l i = Some n -> (1 <= occurrence l i)%nat.
Proof.
  intros H. unfold occurrence. rewrite H. assert (In n (filter (eqb n) (firstn (S i) l))).
  { apply filter_In. split; [|apply eqb_refl]. apply nth_error_In with i. revert H. revert l. induction i as [|i IH]; intros [|a l] H; simpl in *; try discriminate; [exact H|]. apply IH. exact H. }
  destruct (filter _ _); [contradiction|simpl; lia].
Qed.
Lemma occurrence_inj l i j n : nth_error l i = Some n -> nth_error l j = Some n -> occurrence l i = occurrence l j -> i = j.
Proof.
  assert (Hmono : forall l i j n, nth_error l i = Some n -> nth_error l j = Some n -> (i < j)%nat -> (occurrence l i < occurrence l j)%nat).
  { clear. intros l i j n Hi Hj Hlt. unfold occurrence. rewrite Hi, Hj.
    assert (Hsplit : firstn (S j) l = firstn (S i) l ++ firstn (j - i) (skipn (S i) l)).
    { replace (S j) with (S i + (j - i))%nat by lia. clear. generalize (S i) as a. generalize (j - i)%nat as b. intros b a. revert l. induction a; intros [|x l]; simpl; try reflexivity; [destruct b; reflexivity|]. f_equal. apply IHa. }
    rewrite Hsplit, filter_app, app_length.
    assert (In n (firstn (j - i) (skipn (S i) l))).
    { apply nth_error_In with (j - S i)%nat. assert (Hsk : nth_error (skipn (S i) l) (j - S i) = Some n).
      { rewrite <- Hj. clear -Hlt. replace j with (S i + (j - S i))%nat at 2 by lia. generalize (j - S i)%nat as b. generalize (S i) as a. clear. intros a; revert l; induction a; intros [|x l] b; simpl; try reflexivity; [destruct b; reflexivity|apply IHa]. }
      rewrite <- Hsk. assert (Hlt' : (j - S i < j - i)%nat) by lia. revert Hlt'. generalize (j - S i)%nat (j - i)%nat (skipn (S i) l). clear. induction n as [|n IH]; intros m l Hm; destruct m as [|m]; try lia; destruct l as [|x l]; simpl; try reflexivity. apply IH. lia. }
    assert (Hin : In n (filter (eqb n) (firstn (j - i) (skipn (S i) l)))) by (apply filter_In; split; [assumption|apply eqb_refl]).
    destruct (filter (eqb n) (firstn (j - i) (skipn (S i) l))); [contradiction|simpl; lia]. }
  intros Hi Hj He. destruct (Nat.lt_trichotomy i j) as [H|[H|H]]; [|exact H|].
  - specialize (Hmono l i j n Hi Hj H). lia.
  - specialize (Hmono l j i n Hj Hi H). lia.
Qed.

(** decimals contain no underscore *)
Fixpoint no_us (s : string) : bool := match s with EmptyString => true | String c s' => negb (Ascii.eqb c "_"%char) && no_us s' end.
Lemma uint_no_us d : no_us (DecimalString.NilEmpty.string_of_uint d) = true.
Proof. induction d; simpl; auto. Qed.
Lemma nat_no_us n : no_us (string_of_nat n) = true.
Proof.
  unfold string_of_nat, DecimalString.NilZero.string_of_uint. destruct (Nat.to_uint n) eqn:E; try reflexivity; rewrite <- E; rewrite E; apply uint_no_us.
Qed.
Lemma us_absurd a t : no_us (a ++ String "_"%char t)%string = true -> False.
Proof. intros H. induction a as [|c a IH]; simpl in H; [discriminate|]. apply andb_prop in H as [_ H]. exact (IH H). Qed.
Lemma suffix_inj : forall a b s t, no_us s = true -> no_us t = true -> (a ++ String "_"%char s = b ++ String "_"%char t)%string -> a = b /\ s = t.
Proof.
  induction a as [|c a IH]; intros [|c' b] s t Hs Ht H; simpl in H.
  - injection H as H. auto.
  - injection H as _ H. exfalso. subst s. apply (us_absurd b t Hs).
  - injection H as _ H. exfalso. subst t. apply (us_absurd a s Ht).
  - injection H as -> H. destruct (IH b s t Hs Ht H) as [-> ->]. auto.
Qed.
Lemma chain_names_nodup l : no_indexed_names l -> NoDup (chain_names l).
Proof.
  intros Hno. apply NoDup_nth_error. intros i j Hi He. rewrite chain_names_length in Hi.
  assert (Hj : (j < List.length l)%nat) by (rewrite <- (chain_names_length l); apply nth_error_Some; rewrite <- He; apply nth_error_Some; rewrite chain_names_length; exact Hi).
  destruct (nth_error l i) as [n|] eqn:En; [|apply nth_error_None in En; lia]. destruct (nth_error l j) as [m|] eqn:Em; [|apply nth_error_None in Em; lia].
  rewrite (chain_names_nth _ _ _ En), (chain_names_nth _ _ _ Em) in He. injection He as He.
  pose proof (occurrence_pos _ _ _ En) as Pi. pose proof (occurrence_pos _ _ _ Em) as Pj.
  pose proof (nth_error_In _ _ En) as In1. pose proof (nth_error_In _ _ Em) as In2.
  unfold chain_name in He. destruct (Nat.eqb_spec (occurrence l i) 1) as [E1|E1], (Nat.eqb_spec (occurrence l j) 1) as [E2|E2].
  - subst m. apply (occurrence_inj l i j n En Em). congruence.
  - exfalso. apply (Hno m n (occurrence l j) In2 In1); [lia|exact He].
  - exfalso. apply (Hno n m (occurrence l i) In1 In2); [lia|symmetry; exact He].
  - apply suffix_inj in He as [-> He]; [|apply nat_no_us|apply nat_no_us]. apply string_of_nat_inj in He. apply (occurrence_inj l i j m En Em He).
Qed.
Lemma kinds_kwonly l b1 b2 : (forall p, In p l -> sp_kwonly p = true) -> kinds_ok b1 b2 l = true.
Proof. revert b1 b2. induction l as [|p l IH]; intros b1 b2 H; simpl; [reflexivity|]. rewrite (H p) by (left; reflexivity). apply IH. intros q Hq. apply H. right; exact Hq. Qed.
Lemma chain_signature_spec l :
  (NoDup (chain_names l) -> exists s, chain_signature l = Ok s /\ map sp_name s = chain_names l /\ (forall p, In p s -> sp_kwonly p = true /\ sp_default p = true)) /\
  (~ NoDup (chain_names l) -> chain_signature l = Raise ValueError).
Proof.
  unfold chain_signature, mk_signature.
  assert (Hm : map sp_name (map (fun n => {| sp_name := n; sp_kwonly := true; sp_default := true |}) (chain_names l)) = chain_names l) by (rewrite map_map; apply map_id).
  rewrite kinds_kwonly by (intros p Hp; apply in_map_iff in Hp as (n & <- & _); reflexivity). rewrite Hm. simpl andb. split; intros Hn.
  - apply nodupb_iff in Hn. rewrite Hn. eexists. split; [reflexivity|]. split; [exact Hm|]. intros p Hp. apply in_map_iff in Hp as (n & <- & _). auto.
  - destruct (nodupb (chain_names l)) eqn:E; [apply nodupb_iff in E; contradiction|reflexivity].
Qed.

(** ** chains: options and guesses *)
Section ChainFacts.
  Context {O : Type} (no_options : O).
  Lemma bind_kw_all (s : signature) (kw acc : dict string O) : (forall p, In p s -> sp_default p = true) ->
    bind_kw false s kw acc = Ok (acc ++ flat_map (fun p => match dget kw (sp_name p) with Some v => [(sp_name p, v)] | None => [] end) s).
  Proof using.
    revert acc. induction s as [|p s IH]; intros acc H; simpl; [rewrite app_nil_r; reflexivity|]. destruct (dget kw (sp_name p)) as [v|] eqn:E.
    - rewrite IH by (intros q Hq; apply H; right; exact Hq). rewrite <- app_assoc. reflexivity.
    - rewrite (H p) by (left; reflexivity). rewrite IH by (intros q Hq; apply H; right; exact Hq). reflexivity.
  Qed.
  Lemma chain_options_ok l s kw : NoDup (chain_names l) -> chain_signature l = Ok s -> (forall n, In n (dkeys kw) -> In n (chain_names l)) ->
    exists opts, chain_options no_options s kw = Ok opts /\ List.length opts = List.length l /\
      forall i n, nth_error (chain_names l) i = Some n -> nth_error opts i = Some (match dget kw n with Some o => o | None => no_options end).
  Proof using.
    intros Hn Hs Hk. destruct (proj1 (chain_signature_spec l) Hn) as (s' & Hs' & Hnm & Hall). rewrite Hs in Hs'. inv Hs'. rename s' into s.
    unfold chain_options, sig_bind, sig_bind_gen. simpl bind_pos. cbn [bind]. rewrite bind_kw_all by (intros p Hp; apply Hall; exact Hp). cbn [bind app].
    rewrite Hnm.
    assert (Hfor : forallb (fun k => inb k (chain_names l)) (dkeys kw) = true) by (apply forallb_forall; intros k Hkk; apply inb_In; apply Hk; exact Hkk). rewrite Hfor. cbn [bind].
    set (B := flat_map _ s). eexists. split; [reflexivity|]. split; [rewrite map_length, <- (map_length sp_name), Hnm; apply chain_names_length|].
    intros i n Hi. rewrite <- Hnm in Hi. destruct (nth_error s i) as [p|] eqn:Ep.
    2:{ apply nth_error_None in Ep. exfalso. assert (i < List.length (map sp_name s))%nat by (apply nth_error_Some; congruence). rewrite map_length in H. lia. }
    erewrite map_nth_error in Hi by exact Ep. injection Hi as Hi. subst n. erewrite map_nth_error by exact Ep. f_equal.
    assert (HB : dget B (sp_name p) = dget kw (sp_name p)).
    { unfold B. rewrite <- Hnm in Hn. apply nth_error_In in Ep. clear -Hn Ep. induction s as [|q s IH]; simpl in *; [contradiction|]. inv Hn. rewrite dget_app.
      destruct Ep as [->|Ep].
      - destruct (dget kw (sp_name p)) as [v|] eqn:E; simpl; [destruct (eq_dec (sp_name p) (sp_name p)); congruence|].
        apply dget_None. intros Hin. apply H1. unfold dkeys in Hin. apply in_map_iff in Hin as ([a b] & <- & Hin). apply in_flat_map in Hin as (q & Hq & Hin).
        destruct (dget kw (sp_name q)); [|contradiction]. destruct Hin as [Hin|[]]. inv Hin. simpl. apply in_map. exact Hq.
      - assert (Hne : sp_name p <> sp_name q) by (intros He; apply H1; rewrite <- He; apply in_map; exact Ep).
        destruct (dget kw (sp_name q)) as [v|]; simpl; [destruct (eq_dec (sp_name p) (sp_name q)); [congruence|]|]; apply IH; assumption. }
    rewrite HB. reflexivity.
  Qed.
  Lemma chain_options_unknown l s (kw : dict string O) n : chain_signature l = Ok s -> In n (dkeys kw) -> ~ In n (chain_names l) ->
    chain_options no_options s kw = Raise TypeError.
  Proof using.
    intros Hs Hk Hn. unfold chain_signature, mk_signature in Hs. destruct (_ && _); [|discriminate]. inv Hs.
    unfold chain_options, sig_bind, sig_bind_gen. simpl bind_pos. cbn [bind]. rewrite bind_kw_all by (intros p Hp; apply in_map_iff in Hp as (m & <- & _); reflexivity). cbn [bind].
    rewrite map_map. simpl. rewrite map_id. destruct (forallb _ (dkeys kw)) eqn:E; [|reflexivity].
    rewrite forallb_forall in E. specialize (E n Hk). apply inb_In in E. contradiction.
  Qed.

  Lemma chain_guesses h ps todo : forall guess l, chain_loop (O:=O) h ps todo guess = Ok l ->
    (forall g a, nth_error l 0 = Some (g, a) -> g = guess) /\
    forall k g a g' a', nth_error l k = Some (g, a) -> nth_error l (S k) = Some (g', a') ->
      exists popt, pack_output h ps (an_x a) = Ok popt /\ g' = map snd (result_params ps popt).
  Proof using.
    induction todo as [|[ex o] todo IH]; intros guess l H; simpl in H.
    - inv H. split; [intros; discriminate|]. intros [|k] g a g' a' Hk; discriminate.
    - apply bind_Ok in H as (ans & Hans & H). apply bind_Ok in H as (popt & Hpo & H). apply bind_Ok in H as (rest & Hr & H). inv H.
      destruct (IH _ _ Hr) as [H0 Hk]. split; [intros g a Hg; simpl in Hg; congruence|].
      intros [|k] g a g' a' H1 H2; simpl in *.
      + inv H1. exists popt. split; [exact Hpo|]. apply (H0 g' a' H2).
      + apply (Hk k g a g' a'); assumption.
  Qed.
End ChainFacts.

(** ** constraints *)
Lemma constraints_ok cls fixed ps cs : (forall c, In c cs -> c_rel c = REq \/ c_rel c = RGe) ->
  scipy_constraints cls fixed ps (map CMinimize cs) =
  Ok (map (fun c => {| sc_type := match c_rel c with REq => CTeq | _ => CTineq end; sc_fun := c_fun c;
        sc_jac := if is_gradient cls then option_map (resize_jac fixed ps) (c_jac c) else None;
        sc_hess := if is_hessian cls then option_map (resize_hess fixed ps) (c_hess c) else None |}) cs).
Proof.
  unfold scipy_constraints. induction cs as [|c cs IH]; intros H; simpl; [reflexivity|]. unfold scipy_con_of at 1. simpl.
  destruct (H c (or_introl eq_refl)) as [->| ->]; simpl; rewrite IH by (intros d Hd; apply H; right; exact Hd); reflexivity.
Qed.

(** ** basin hopping *)
Section BasinFacts.
  Context {W : Type}.
  Lemma dget_set_missing (d : dict string W) c k v n : dget (set_missing d c k v) n =
    match dget d n with Some w => Some w | None => if eqb n k && c then Some v else None end.
  Proof using.
    unfold set_missing, dmem. destruct (dget d k) as [w|] eqn:E; simpl.
    - destruct (dget d n) eqn:En; [reflexivity|]. unfold eqb. destruct (eq_dec n k) as [->|]; [congruence|reflexivity].
    - destruct c; simpl.
      + rewrite dget_dset. unfold eqb. destruct (eq_dec n k) as [->|]; simpl; [rewrite E; reflexivity|]. destruct (dget d n); reflexivity.
      + rewrite andb_false_r. destruct (dget d n); reflexivity.
  Qed.
  Lemma basin_spec local (method jac cons bnds : W) user n : dget (basin_kwargs local method jac cons bnds user) n =
    match dget (match user with Some d => d | None => [] end) n with
    | Some w => Some w
    | None => if eqb n "method" then Some method
              else if eqb n "jac" && is_gradient local then Some jac
              else if eqb n "constraints" && is_constrained local then Some cons
              else if eqb n "bounds" && is_bounded local then Some bnds else None
    end.
  Proof using.
    unfold basin_kwargs. rewrite !dget_set_missing. destruct (dget _ n); [reflexivity|]. rewrite andb_true_r.
    destruct (eqb n "method"); [reflexivity|]. destruct (eqb n "jac" && _); [reflexivity|]. destruct (eqb n "constraints" && _); reflexivity.
  Qed.
End BasinFacts.
