(** * PyFacts: facts about the Python fragment of PyBase. *)
From Verif Require Import PyBase.
From Coq Require Import Sorted Relations.

Ltac inv H := inversion H; subst; clear H.

(** ** res *)
Lemma bind_Ok {A B} (r : res A) (f : A -> res B) b :
  bind r f = Ok b <-> exists a, r = Ok a /\ f a = Ok b.
Proof.
  destruct r as [a|e]; simpl; split.
  - eauto.
  - intros (a' & Ha & Hf); inv Ha; exact Hf.
  - discriminate.
  - intros (a' & Ha & _); discriminate.
Qed.

Lemma mapM_Ok {A B} (f : A -> res B) l ys :
  mapM f l = Ok ys <-> Forall2 (fun x y => f x = Ok y) l ys.
Proof.
  revert ys; induction l as [|x l IH]; intros ys; simpl; split.
  - intros Hq; inv Hq; constructor.
  - intros Hq; inv Hq; reflexivity.
  - intros Hq. apply bind_Ok in Hq as (y & Hy & Hq). apply bind_Ok in Hq as (zs & Hz & Hq).
    inv Hq. constructor; [exact Hy|]. apply IH; exact Hz.
  - intros Hq; inv Hq. rewrite H1. simpl. apply IH in H3. rewrite H3. reflexivity.
Qed.

Lemma mapM_map {A B} (f : A -> res B) (g : A -> B) l :
  (forall x, In x l -> f x = Ok (g x)) -> mapM f l = Ok (map g l).
Proof.
  induction l as [|x l IH]; intros Hf; simpl; [reflexivity|].
  rewrite Hf by (left; reflexivity). simpl. rewrite IH by (intros; apply Hf; right; assumption).
  reflexivity.
Qed.

Lemma Forall2_len {A B} (R : A -> B -> Prop) l m : Forall2 R l m -> List.length l = List.length m.
Proof. induction 1; simpl; congruence. Qed.

(** ** eqb, inb, dedup, diffl *)
Section Eq.
  Context {A : Type} `{EqDec A}.
  Lemma eqb_true (x y : A) : eqb x y = true <-> x = y.
  Proof. unfold eqb; destruct (eq_dec x y); split; congruence. Qed.
  Lemma eqb_false (x y : A) : eqb x y = false <-> x <> y.
  Proof. unfold eqb; destruct (eq_dec x y); split; congruence. Qed.
  Lemma eqb_refl (x : A) : eqb x x = true.
  Proof. apply eqb_true; reflexivity. Qed.
  Lemma eqb_sym (x y : A) : eqb x y = eqb y x.
  Proof. unfold eqb; destruct (eq_dec x y), (eq_dec y x); congruence. Qed.
  Lemma inb_In (x : A) l : inb x l = true <-> In x l.
  Proof.
    unfold inb. rewrite existsb_exists. split.
    - intros (y & Hy & He). apply eqb_true in He; subst; exact Hy.
    - intros Hx; exists x; split; [exact Hx|apply eqb_refl].
  Qed.
  Lemma inb_false (x : A) l : inb x l = false <-> ~ In x l.
  Proof.
    rewrite <- inb_In. destruct (inb x l); split; congruence.
  Qed.
  Lemma in_dedup (x : A) l : In x (dedup l) <-> In x l.
  Proof.
    induction l as [|y l IH]; simpl; [tauto|].
    rewrite filter_In, IH. split.
    - intros [Hx|[Hx _]]; auto.
    - intros [Hx|Hx]; [auto|]. destruct (eq_dec y x) as [He|He]; [auto|].
      right; split; [exact Hx|]. apply negb_true_iff, eqb_false; exact He.
  Qed.
  Lemma NoDup_dedup (l : list A) : NoDup (dedup l).
  Proof.
    induction l as [|y l IH]; simpl; [constructor|].
    constructor.
    - rewrite filter_In. intros [_ Hn]. rewrite eqb_refl in Hn; discriminate.
    - apply NoDup_filter; exact IH.
  Qed.
  Lemma filter_true (f : A -> bool) l : (forall x, In x l -> f x = true) -> filter f l = l.
  Proof.
    induction l as [|x l IH]; intros Hf; simpl; [reflexivity|].
    rewrite Hf by (left; reflexivity). rewrite IH by (intros; apply Hf; right; assumption). reflexivity.
  Qed.
  Lemma dedup_id (l : list A) : NoDup l -> dedup l = l.
  Proof.
    induction 1 as [|x l Hx Hl IH]; simpl; [reflexivity|].
    rewrite IH. f_equal. apply filter_true. intros y Hy.
    apply negb_true_iff, eqb_false. intros ->; contradiction.
  Qed.
  Lemma in_diffl (x : A) l m : In x (diffl l m) <-> In x l /\ ~ In x m.
  Proof. unfold diffl. rewrite filter_In, negb_true_iff, inb_false. tauto. Qed.
End Eq.

(** ** dict *)
Section DictFacts.
  Context {K V : Type} `{EqDec K}.
  Implicit Types d : dict K V.

  Lemma dget_In d k v : dget d k = Some v -> In (k, v) d.
  Proof.
    induction d as [|[k' v'] d IH]; simpl; [discriminate|].
    destruct (eq_dec k k') as [->|Hn]; intros Hg; [inv Hg; left; reflexivity|right; auto].
  Qed.
  Lemma dget_keys d k : dget d k <> None <-> In k (dkeys d).
  Proof.
    induction d as [|[k' v'] d IH]; simpl; [tauto|].
    destruct (eq_dec k k') as [->|Hn]; [split; [auto|discriminate]|].
    rewrite IH. split; [auto|]. intros [He|He]; [congruence|exact He].
  Qed.
  Lemma dget_None d k : dget d k = None <-> ~ In k (dkeys d).
  Proof.
    rewrite <- dget_keys. destruct (dget d k); split; try congruence; try tauto.
    intros Hn; exfalso; apply Hn; discriminate.
  Qed.
  Lemma dget_Some_key d k v : dget d k = Some v -> In k (dkeys d).
  Proof. intros Hg; apply dget_keys; rewrite Hg; discriminate. Qed.
  Lemma dmem_keys d k : dmem d k = true <-> In k (dkeys d).
  Proof.
    unfold dmem. rewrite <- dget_keys. destruct (dget d k); split; congruence.
  Qed.
  Lemma dmem_false d k : dmem d k = false <-> ~ In k (dkeys d).
  Proof. rewrite <- dmem_keys. destruct (dmem d k); split; congruence. Qed.
  Lemma In_dget d k v : NoDup (dkeys d) -> In (k, v) d -> dget d k = Some v.
  Proof.
    induction d as [|[k' v'] d IH]; simpl; [tauto|].
    intros Hnd Hin; inv Hnd. destruct Hin as [He|Hin].
    - inv He. destruct (eq_dec k k); congruence.
    - destruct (eq_dec k k') as [->|Hn]; [|auto].
      exfalso. apply H2. change k' with (fst (k', v)). apply in_map; exact Hin.
  Qed.
  Lemma dget_perm d d' k : NoDup (dkeys d) -> Permutation d d' -> dget d k = dget d' k.
  Proof.
    intros Hnd Hp.
    assert (Hnd' : NoDup (dkeys d')) by (eapply Permutation_NoDup; [apply Permutation_map; exact Hp|exact Hnd]).
    destruct (dget d k) as [v|] eqn:Hg.
    - symmetry; apply In_dget; [exact Hnd'|]. eapply Permutation_in; [exact Hp|]. apply dget_In; exact Hg.
    - symmetry; apply dget_None. apply dget_None in Hg. intros Hk; apply Hg.
      eapply Permutation_in; [|exact Hk]. symmetry. apply Permutation_map; exact Hp.
  Qed.
  Lemma dget_dset_eq d k v : dget (dset d k v) k = Some v.
  Proof.
    induction d as [|[k' v'] d IH]; simpl.
    - destruct (eq_dec k k); congruence.
    - destruct (eq_dec k k') as [->|Hn]; simpl.
      + destruct (eq_dec k' k'); congruence.
      + destruct (eq_dec k k'); congruence.
  Qed.
  Lemma dget_dset_ne d k k2 v : k2 <> k -> dget (dset d k v) k2 = dget d k2.
  Proof.
    intros Hne. induction d as [|[k' v'] d IH]; simpl.
    - destruct (eq_dec k2 k); congruence.
    - destruct (eq_dec k k') as [->|Hn]; simpl; destruct (eq_dec k2 k'); congruence.
  Qed.
  Lemma dget_dset d k k2 v : dget (dset d k v) k2 = if eq_dec k2 k then Some v else dget d k2.
  Proof.
    destruct (eq_dec k2 k) as [->|Hn]; [apply dget_dset_eq|apply dget_dset_ne; exact Hn].
  Qed.
  Lemma dkeys_dset d k v : dkeys (dset d k v) = if inb k (dkeys d) then dkeys d else dkeys d ++ [k].
  Proof.
    induction d as [|[k' v'] d IH]; simpl; [reflexivity|].
    unfold inb in *; simpl. unfold eqb at 1.
    destruct (eq_dec k k') as [->|Hn]; simpl; [reflexivity|].
    unfold dkeys in *; simpl; rewrite IH.
    destruct (existsb (eqb k) (map fst d)); reflexivity.
  Qed.
  Lemma in_dkeys_dset d k v k2 : In k2 (dkeys (dset d k v)) <-> k2 = k \/ In k2 (dkeys d).
  Proof.
    rewrite <- !dget_keys, dget_dset. destruct (eq_dec k2 k); split; try tauto; try discriminate.
  Qed.
  Lemma NoDup_dset d k v : NoDup (dkeys d) -> NoDup (dkeys (dset d k v)).
  Proof.
    rewrite dkeys_dset. destruct (inb k (dkeys d)) eqn:Hk; [auto|].
    intros Hnd. apply inb_false in Hk.
    eapply Permutation_NoDup; [apply Permutation_cons_append|]. constructor; assumption.
  Qed.
  Lemma dset_app_notin d k v : ~ In k (dkeys d) -> dset d k v = d ++ [(k, v)].
  Proof.
    induction d as [|[k' v'] d IH]; simpl; intros Hk; [reflexivity|].
    destruct (eq_dec k k') as [->|Hn]; [tauto|]. rewrite IH by tauto. reflexivity.
  Qed.
  Lemma dupdate_app_nodup d e :
    NoDup (dkeys d ++ dkeys e) -> dupdate d e = d ++ e.
  Proof.
    revert d; induction e as [|[k v] e IH]; intros d Hnd; simpl; [rewrite app_nil_r; reflexivity|].
    unfold dupdate in *; simpl.
    rewrite dset_app_notin.
    - rewrite IH.
      + rewrite <- app_assoc; reflexivity.
      + unfold dkeys in *. rewrite map_app, <- app_assoc. exact Hnd.
    - simpl in Hnd. apply NoDup_remove_2 in Hnd. intros Hk; apply Hnd, in_or_app; auto.
  Qed.
  Lemma dict_of_nodup (l : list (K * V)) : NoDup (map fst l) -> dict_of l = l.
  Proof. intros Hnd. unfold dict_of. rewrite dupdate_app_nodup; [reflexivity|exact Hnd]. Qed.
  Lemma dget_app d e k : dget (d ++ e) k = match dget d k with Some v => Some v | None => dget e k end.
  Proof.
    induction d as [|[k' v'] d IH]; simpl; [reflexivity|].
    destruct (eq_dec k k'); [reflexivity|exact IH].
  Qed.
  Lemma dget_dupdate d e k :
    dget (dupdate d e) k = match dget (rev e) k with Some v => Some v | None => dget d k end.
  Proof.
    revert d; induction e as [|[k' v'] e IH]; intros d; simpl; [reflexivity|].
    unfold dupdate in *; simpl. rewrite IH, dget_app. simpl.
    destruct (dget (rev e) k); [reflexivity|]. rewrite dget_dset. destruct (eq_dec k k'); reflexivity.
  Qed.
  Lemma NoDup_dupdate d e : NoDup (dkeys d) -> NoDup (dkeys (dupdate d e)).
  Proof.
    revert d; induction e as [|[k v] e IH]; intros d Hnd; simpl; [exact Hnd|].
    unfold dupdate in *; simpl. apply IH, NoDup_dset; exact Hnd.
  Qed.
  Lemma dget_rev_nodup d k : NoDup (dkeys d) -> dget (rev d) k = dget d k.
  Proof. intros Hnd; symmetry; apply dget_perm; [exact Hnd|apply Permutation_rev]. Qed.
  Lemma dget_dupdate_nodup d e k : NoDup (dkeys e) ->
    dget (dupdate d e) k = match dget e k with Some v => Some v | None => dget d k end.
  Proof. intros Hnd. rewrite dget_dupdate, dget_rev_nodup by exact Hnd. reflexivity. Qed.
  Lemma dget_ddel d k k2 : dget (ddel d k) k2 = if eq_dec k2 k then None else dget d k2.
  Proof.
    induction d as [|[k' v'] d IH]; simpl; [destruct (eq_dec k2 k); reflexivity|].
    unfold ddel in *; simpl. unfold eqb at 1. destruct (eq_dec k k') as [->|Hn]; simpl.
    - rewrite IH. destruct (eq_dec k2 k'); reflexivity.
    - rewrite IH. destruct (eq_dec k2 k') as [->|]; [|reflexivity].
      destruct (eq_dec k' k); congruence.
  Qed.
  Lemma dget_filter_key (f : K -> bool) d k :
    dget (filter (fun kv => f (fst kv)) d) k = if f k then dget d k else None.
  Proof.
    induction d as [|[k' v'] d IH]; simpl; [destruct (f k); reflexivity|].
    destruct (f k') eqn:Hf; simpl.
    - destruct (eq_dec k k') as [->|Hn]; [rewrite Hf; reflexivity|exact IH].
    - destruct (eq_dec k k') as [->|Hn]; [rewrite IH, Hf; reflexivity|exact IH].
  Qed.
  Lemma dget_map_keyed (l : list K) (f : K -> V) k :
    dget (map (fun x => (x, f x)) l) k = if inb k l then Some (f k) else None.
  Proof.
    induction l as [|x l IH]; simpl; [reflexivity|].
    unfold inb in *; simpl. unfold eqb at 1. destruct (eq_dec k x) as [->|Hn]; simpl; [reflexivity|exact IH].
  Qed.
End DictFacts.

Lemma dget_mapv {K V W} `{EqDec K} (f : K -> V -> W) (d : dict K V) k :
  dget (map (fun kv => (fst kv, f (fst kv) (snd kv))) d) k = option_map (f k) (dget d k).
Proof.
  induction d as [|[k' v'] d IH]; simpl; [reflexivity|].
  destruct (eq_dec k k') as [->|Hn]; [reflexivity|exact IH].
Qed.

Lemma dget_combine_nth {K V} `{EqDec K} (ks : list K) (vs : list V) i k v :
  NoDup ks -> nth_error ks i = Some k -> nth_error vs i = Some v -> dget (combine ks vs) k = Some v.
Proof.
  revert vs i; induction ks as [|k' ks IH]; intros vs i Hnd Hk Hv; destruct i; simpl in *; try discriminate.
  - inv Hk. destruct vs; simpl in *; [discriminate|]. inv Hv. destruct (eq_dec k k); congruence.
  - destruct vs as [|v' vs]; simpl in *; [discriminate|]. inv Hnd.
    destruct (eq_dec k k') as [->|Hn]; [exfalso; apply H2; eapply nth_error_In; exact Hk|].
    eapply IH; eassumption.
Qed.

Lemma dkeys_combine {K V} (ks : list K) (vs : list V) :
  List.length ks = List.length vs -> dkeys (combine ks vs) = ks.
Proof.
  revert vs; induction ks as [|k ks IH]; intros [|v vs] Hl; simpl in *; try discriminate; [reflexivity|].
  f_equal. apply IH. lia.
Qed.

(** ** String order is a total order *)
Lemma ascii_compare_lt_trans a b c :
  Ascii.compare a b = Lt -> Ascii.compare b c = Lt -> Ascii.compare a c = Lt.
Proof.
  unfold Ascii.compare. intros H1 H2. rewrite N.compare_lt_iff in *. lia.
Qed.
Lemma ascii_compare_eq a b : Ascii.compare a b = Eq -> a = b.
Proof. apply Ascii.compare_eq_iff. Qed.
Lemma ascii_compare_refl a : Ascii.compare a a = Eq.
Proof. unfold Ascii.compare. apply N.compare_refl. Qed.

Lemma string_compare_lt_trans a b c :
  String.compare a b = Lt -> String.compare b c = Lt -> String.compare a c = Lt.
Proof.
  revert b c; induction a as [|x a IH]; intros [|y b] [|z c]; simpl; try discriminate; auto.
  destruct (Ascii.compare x y) eqn:Hxy; try discriminate.
  - apply ascii_compare_eq in Hxy; subst y.
    destruct (Ascii.compare x z) eqn:Hxz; try discriminate; auto. apply IH.
  - intros _. destruct (Ascii.compare y z) eqn:Hyz; try discriminate.
    + apply ascii_compare_eq in Hyz; subst z. rewrite Hxy; auto.
    + rewrite (ascii_compare_lt_trans _ _ _ Hxy Hyz); auto.
Qed.
Lemma string_compare_refl a : String.compare a a = Eq.
Proof. induction a as [|x a IH]; simpl; [reflexivity|]. rewrite ascii_compare_refl; exact IH. Qed.

Lemma strleb_total a b : strleb a b = true \/ strleb b a = true.
Proof. apply String.leb_total. Qed.
Lemma strleb_antisym a b : strleb a b = true -> strleb b a = true -> a = b.
Proof. apply String.leb_antisym. Qed.
Lemma strleb_refl a : strleb a a = true.
Proof. destruct (strleb_total a a); assumption. Qed.
Lemma strleb_trans a b c : strleb a b = true -> strleb b c = true -> strleb a c = true.
Proof.
  unfold strleb, String.leb.
  destruct (String.compare a b) eqn:H1; try discriminate; destruct (String.compare b c) eqn:H2; try discriminate; intros _ _.
  - apply String.compare_eq_iff in H1; subst; rewrite H2; reflexivity.
  - apply String.compare_eq_iff in H1; subst; rewrite H2; reflexivity.
  - apply String.compare_eq_iff in H2; subst; rewrite H1; reflexivity.
  - rewrite (string_compare_lt_trans _ _ _ H1 H2); reflexivity.
Qed.

(** ** Sorting *)
Section SortFacts.
  Context {A : Type} (leb : A -> A -> bool).
  Definition le_of (x y : A) : Prop := leb x y = true.
  Lemma insert_perm x l : Permutation (x :: l) (insert leb x l).
  Proof.
    induction l as [|y l IH]; simpl; [reflexivity|].
    destruct (leb x y); [reflexivity|].
    rewrite perm_swap. constructor. exact IH.
  Qed.
  Lemma isort_perm l : Permutation l (isort leb l).
  Proof.
    induction l as [|x l IH]; simpl; [constructor|].
    rewrite <- insert_perm. constructor. exact IH.
  Qed.
  Lemma in_isort x l : In x (isort leb l) <-> In x l.
  Proof.
    split; apply Permutation_in; [symmetry|]; apply isort_perm.
  Qed.
  Lemma length_isort l : List.length (isort leb l) = List.length l.
  Proof. symmetry; apply Permutation_length, isort_perm. Qed.

  Context (leb_total : forall x y, leb x y = true \/ leb y x = true).
  Context (leb_trans : forall x y z, leb x y = true -> leb y z = true -> leb x z = true).
  Lemma insert_sorted x l : StronglySorted le_of l -> StronglySorted le_of (insert leb x l).
  Proof using leb_total leb_trans.
    induction 1 as [|y l Hl IH Hy]; simpl; [repeat constructor|].
    destruct (leb x y) eqn:Hxy.
    - constructor; [constructor; assumption|]. constructor; [exact Hxy|].
      rewrite Forall_forall in *. intros z Hz. unfold le_of in *. eapply leb_trans; eauto.
    - constructor; [exact IH|]. rewrite Forall_forall in *. intros z Hz.
      eapply Permutation_in in Hz; [|symmetry; apply insert_perm].
      destruct Hz as [<-|Hz]; [|auto]. unfold le_of. destruct (leb_total x y); congruence.
  Qed.
  Lemma isort_sorted l : StronglySorted le_of (isort leb l).
  Proof using leb_total leb_trans.
    induction l as [|x l IH]; simpl; [constructor|]. apply insert_sorted; exact IH.
  Qed.
  Lemma isort_id l : StronglySorted le_of l -> isort leb l = l.
  Proof.
    induction 1 as [|x l Hl IH Hx]; simpl; [reflexivity|]. rewrite IH.
    destruct l as [|y l]; simpl; [reflexivity|]. inv Hx. unfold le_of in H1. rewrite H1. reflexivity.
  Qed.
  (** A sorted list is determined by its elements when the order is
      antisymmetric on them. *)
  Lemma sorted_unique l l' :
    (forall x y, In x l -> In y l -> leb x y = true -> leb y x = true -> x = y) ->
    Permutation l l' -> StronglySorted le_of l -> StronglySorted le_of l' -> l = l'.
  Proof.
    intros Hanti Hp Hs; revert l' Hp; induction Hs as [|x l Hl IH Hx]; intros l' Hp Hs'.
    - apply Permutation_nil in Hp; subst; reflexivity.
    - destruct l' as [|y l']; [symmetry in Hp; apply Permutation_nil in Hp; discriminate|].
      inv Hs'. rewrite Forall_forall in *.
      assert (Hxy : x = y).
      { assert (Hyin : In y (x :: l)) by (eapply Permutation_in; [symmetry; exact Hp|left; reflexivity]).
        assert (Hxin : In x (y :: l')) by (eapply Permutation_in; [exact Hp|left; reflexivity]).
        destruct Hyin as [He|Hyin]; [exact He|]. destruct Hxin as [He|Hxin]; [congruence|].
        apply Hanti; [left; reflexivity|right; exact Hyin| |]; [apply Hx; exact Hyin|apply H2; exact Hxin]. }
      subst y. f_equal. apply IH.
      + intros a b Ha Hb; apply Hanti; right; assumption.
      + eapply Permutation_cons_inv; exact Hp.
      + exact H1.
  Qed.
  Lemma isort_perm_eq l l' :
    (forall x y, In x l -> In y l -> leb x y = true -> leb y x = true -> x = y) ->
    Permutation l l' -> isort leb l = isort leb l'.
  Proof using leb_total leb_trans.
    intros Hanti Hp. apply sorted_unique.
    - intros x y Hx Hy. rewrite in_isort in Hx, Hy. apply Hanti; assumption.
    - rewrite <- !isort_perm; exact Hp.
    - apply isort_sorted.
    - apply isort_sorted.
  Qed.
End SortFacts.

(** Alphabetical: sorted by name. *)
Definition alphabetical {A} (key : A -> string) (l : list A) : Prop :=
  StronglySorted (fun a b => strleb (key a) (key b) = true) l.

Section SortBy.
  Context {A : Type} (key : A -> string).
  Lemma sort_by_perm l : Permutation l (sort_by key l).
  Proof. apply isort_perm. Qed.
  Lemma in_sort_by x l : In x (sort_by key l) <-> In x l.
  Proof. apply in_isort. Qed.
  Lemma length_sort_by l : List.length (sort_by key l) = List.length l.
  Proof. apply length_isort. Qed.
  Lemma sort_by_sorted l : alphabetical key (sort_by key l).
  Proof.
    apply (isort_sorted (fun a b => strleb (key a) (key b))).
    - intros; apply strleb_total.
    - intros x y z; apply strleb_trans.
  Qed.
  Definition key_inj (l : list A) : Prop :=
    forall x y, In x l -> In y l -> key x = key y -> x = y.
  Lemma sort_by_perm_eq l l' : key_inj l -> Permutation l l' -> sort_by key l = sort_by key l'.
  Proof.
    intros Hinj Hp. apply isort_perm_eq; [intros; apply strleb_total|intros x y z; apply strleb_trans| |exact Hp].
    intros x y Hx Hy H1 H2. apply Hinj; [assumption|assumption|]. apply strleb_antisym; assumption.
  Qed.
  Lemma alphabetical_unique l l' : key_inj l -> Permutation l l' -> alphabetical key l -> alphabetical key l' -> l = l'.
  Proof.
    intros Hinj Hp H1 H2. eapply (sorted_unique (fun a b => strleb (key a) (key b))); eauto.
    intros x y Hx Hy H3 H4. apply Hinj; [assumption|assumption|]. apply strleb_antisym; assumption.
  Qed.
  Lemma NoDup_sort_by l : NoDup l -> NoDup (sort_by key l).
  Proof. apply Permutation_NoDup, sort_by_perm. Qed.
  Lemma sort_by_id l : alphabetical key l -> sort_by key l = l.
  Proof. apply (isort_id (fun a b => strleb (key a) (key b))). Qed.
  Lemma map_sort_by : forall l, map key (sort_by key l) = sort_by (fun s => s) (map key l).
  Proof.
    unfold sort_by. induction l as [|x l IH]; simpl; [reflexivity|]. rewrite <- IH.
    generalize (isort (fun a b : A => strleb (key a) (key b)) l); intros m.
    induction m as [|y m IHm]; simpl; [reflexivity|].
    destruct (strleb (key x) (key y)); simpl; [reflexivity|]. rewrite IHm; reflexivity.
  Qed.
End SortBy.

Lemma NoDup_map_inv_key {A} (key : A -> string) l : NoDup (map key l) -> key_inj key l.
Proof.
  induction l as [|a l IH]; intros Hnd x y Hx Hy He; [contradiction|].
  simpl in Hnd; inv Hnd. destruct Hx as [->|Hx], Hy as [->|Hy].
  - reflexivity.
  - exfalso; apply H1; rewrite He; apply in_map; exact Hy.
  - exfalso; apply H1; rewrite <- He; apply in_map; exact Hx.
  - apply IH; assumption.
Qed.

(** ** str(n) is injective *)
From Coq Require Import DecimalString DecimalNat DecimalFacts.
Lemma to_uint_nonnil n : Nat.to_uint n <> Decimal.Nil.
Proof.
  intros Hn. assert (H0 : n = 0).
  { apply (f_equal Nat.of_uint) in Hn. rewrite DecimalNat.Unsigned.of_to in Hn. exact Hn. }
  subst n; discriminate Hn.
Qed.
Lemma string_of_nat_inj n m : string_of_nat n = string_of_nat m -> n = m.
Proof.
  unfold string_of_nat. intros He.
  apply DecimalNat.Unsigned.to_uint_inj.
  apply (f_equal NilZero.uint_of_string) in He.
  rewrite !NilZero.usu in He by apply to_uint_nonnil. congruence.
Qed.

Lemma NoDup_app_split {B} (a b : list B) : NoDup (a ++ b) -> NoDup a /\ NoDup b /\ forall x, In x a -> ~ In x b.
Proof.
  induction a as [|x a IH]; simpl; intros Hn; [repeat split; auto; constructor|].
  inversion Hn as [|x' l' H1 H2]; subst. destruct (IH H2) as (I1 & I2 & I3). repeat split; auto.
  - constructor; [|exact I1]. intros Hx; apply H1, in_or_app; auto.
  - intros y [<-|Hy]; auto. intros Hx; apply H1, in_or_app; auto.
Qed.
