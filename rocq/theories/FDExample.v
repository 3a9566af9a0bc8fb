(** * FDExample: a two component model satisfying the hypotheses of C15. *)
From Coq Require Import Reals Lra FunctionalExtensionality.
From Verif Require Import PyBase PyFacts Signature Expr NumPy NumFacts ModelSpec FiniteDiff FDSpec.
Local Open Scope R_scope.
Local Open Scope string_scope.
Local Open Scope list_scope.

(** {y: a * x**2 + b, z: b**3} *)
Definition fx_call (l : list nd) : res (list nd) :=
  match l with
  | [x; a; b] => ax <- nmul a (nsq x) ;; y <- nadd ax b ;; Ok [y; npmap (fun t => t ^ 3) b]
  | _ => Raise TypeError
  end.
Definition fx_g : gmodel := {| g_indep := ["x"]; g_params := ["a"; "b"]; g_len := 2; g_call := fx_call |}.
Definition fx_x : nd := {| shp := [2%nat]; val := fun i => match i with [1%nat] => 2 | _ => 1 end |}.
Definition fx_F (xs : list R) (c : nat) : nd :=
  match c with
  | O => {| shp := [2%nat]; val := fun i => nth 0 xs 0 * elem fx_x i ^ 2 + nth 1 xs 0 |}
  | _ => scalar (nth 1 xs 0 ^ 3)
  end.
Definition fx_sh (c : nat) : list nat := match c with O => [2%nat] | _ => [] end.

Lemma fx_evaluates dx pv : List.length pv = 2%nat -> evaluates fx_g [fx_x] fx_sh fx_F dx pv.
Proof.
  intros Hp xs Hx. assert (Hl : List.length xs = 2%nat).
  { destruct Hx as (j & k & _ & _ & [->| ->]); unfold with_entry; rewrite map_length, seq_length; exact Hp. }
  destruct xs as [|a [|b [|]]]; try discriminate. split.
  - cbn -[pow Rplus Rmult elem]. do 2 f_equal. f_equal. apply functional_extensionality. intros i. unfold elem. cbn -[pow Rplus Rmult]. destruct i; reflexivity.
  - intros c Hc. destruct c as [|[|c]]; [reflexivity|reflexivity|simpl in Hc; lia].
Qed.
Lemma fx_supplies : supplies (combine (g_indep fx_g ++ g_params fx_g) ([fx_x] ++ map scalar [3; 5])) [fx_x] [("b", scalar 5); ("a", scalar 3)].
Proof. exists 1%nat. split; [reflexivity|]. simpl. apply perm_swap. Qed.
