(** Worked cases for the end of the refinement loop. *)
From Coq Require Import Reals Lra Lia Bool String List Arith ZArith.
From Verif Require Import Num PyList Mat Poly Roots Colloc Ocp Transcribe Solve SpecSolve NumR ListR NlpMain SolveR HsolveR ExSolve SpecLoop.
Import ListNotations.
Open Scope string_scope.
Open Scope list_scope.
Open Scope R_scope.

Section C.
Variables (o : ocp Rnum) (cf : ccfg Rnum).
(** a solver whose solution tells how often it was called *)
Definition count_env : env (N := Rnum) :=
  Env (Ok tt) (fun _ _ => Ok tt) (fun cs _ _ => Ok (("x", []) :: ("f", []) :: map (fun _ => ("g", [])) cs)).
(** errors 1, 1/2 and then 1/100; the widths go to and fro *)
Definition two_cfg : hcfg (N := Rnum) :=
  Hcfg [1 / 10] "residual" "merge_split" (fun _ _ => Ok ([], None))
    (fun _ _ sol => Ok (match sol with
       | [_] => ([1 / 4; 3 / 4], Some 1)
       | [_; _] => ([1 / 2; 1 / 2], Some (1 / 2))
       | _ => ([1 / 4; 3 / 4], Some (1 / 100)) end)).
(** widths that stay, error 1 *)
Definition same_cfg : hcfg (N := Rnum) :=
  Hcfg [1 / 10] "residual" "merge_split" (fun _ _ => Ok ([], None)) (fun _ _ _ => Ok ([1 / 2; 1 / 2], Some 1)).
Definition first_args : sargs (N := Rnum) := Sargs (Some [("x", [])]) false "ipopt" 0 1.
Lemma lt_yes (a b : R) : a < b -> nltb (n := Rnum) a b = true. Proof. intros. apply Rltb_true. exact H. Qed.
Lemma lt_no (a b : R) : b <= a -> nltb (n := Rnum) a b = false. Proof. intros. apply Rltb_false. lra. Qed.
Lemma stall_two : widths_stall (N := Rnum) [1 / 2; 1 / 2] [1 / 4; 3 / 4] = Ok false.
Proof.
  assert (K : widths_stall (N := Rnum) [1 / 2; 1 / 2] [1 / 4; 3 / 4] =
    Ok (nleb (n := Rnum) (ndiv (n := Rnum) (nabs (N := Rnum) (1 / 2 - 1 / 4)) (1 / 2)) (tol5 (N := Rnum)) &&
        (nleb (n := Rnum) (ndiv (n := Rnum) (nabs (N := Rnum) (1 / 2 - 3 / 4)) (1 / 2)) (tol5 (N := Rnum)) && true))) by reflexivity.
  rewrite K. clear K. rewrite tol5_val, !nabs_R.
  replace (nleb (n := Rnum) _ _) with false; [reflexivity|]. symmetry. apply Rleb_false. nred.
  rewrite Rabs_right by lra. lra.
Qed.
Lemma two_runs n : exists s' sol, h_solve count_env (ex_mp o cf) true two_cfg first_args (S (S n)) (fresh [[]; []]) = (s', Ok sol) /\
  List.length (st_calls s') = 2%nat /\ map snd (st_info s') = [Some (1 / 2); Some (1 / 100)].
Proof.
  assert (B1 : below_tol two_cfg (Some 1) = Ok false) by (cbn -[nltb]; rewrite lt_no; [reflexivity|lra]).
  assert (B2 : below_tol two_cfg (Some (1 / 2)) = Ok false) by (cbn -[nltb]; rewrite lt_no; [reflexivity|lra]).
  assert (B3 : below_tol two_cfg (Some (1 / 100)) = Ok true) by (cbn -[nltb]; rewrite lt_yes; [reflexivity|lra]).
  do 2 eexists. split.
  - unfold h_solve. cbn -[widths_stall below_tol hloop].
    rewrite B1. unfold mbind at 1. cbn -[widths_stall below_tol hloop].
    cbn [hloop]. cbn -[widths_stall below_tol hloop]. rewrite B2. cbn -[widths_stall below_tol hloop].
    cbn [hloop]. cbn -[widths_stall below_tol hloop].
    rewrite stall_two. cbn -[widths_stall below_tol hloop]. rewrite B3. cbn -[widths_stall below_tol hloop]. reflexivity.
  - split; reflexivity.
Qed.
Lemma same_runs n : exists s' sol, h_solve count_env (ex_mp o cf) true same_cfg first_args (S (S n)) (fresh [[]; []]) = (s', Ok sol) /\
  st_info s' = [(1%nat, Some 1)].
Proof.
  assert (B1 : below_tol same_cfg (Some 1) = Ok false) by (cbn -[nltb]; rewrite lt_no; [reflexivity|lra]).
  do 2 eexists. split.
  - unfold h_solve. cbn -[widths_stall below_tol hloop].
    rewrite B1. unfold mbind at 1. cbn -[widths_stall below_tol hloop].
    cbn [hloop]. cbn -[widths_stall below_tol hloop]. rewrite B1. cbn -[widths_stall below_tol hloop].
    cbn [hloop]. cbn -[widths_stall below_tol hloop].
    rewrite stall_same. cbn -[widths_stall below_tol hloop]. reflexivity.
  - reflexivity.
Qed.
Lemma not_converged : ~ converged (h_tol same_cfg) (Some 1).
Proof. intros (x & [= <-] & K). specialize (K (1 / 10) (or_introl eq_refl)). lra. Qed.
Lemma settled_case : settled [None; Some 1; Some (101 / 100); Some 1; Some (99 / 100)].
Proof. exists [None], 1, (101 / 100), 1, (99 / 100). split; [reflexivity|]. split; [discriminate|]. rewrite (Rabs_left (_ - _)), (Rabs_right (99 / 100)) by lra. lra. Qed.
End C.
