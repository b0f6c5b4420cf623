(** Residuals of one phase without nodes (proof for C33). *)
From Coq Require Import String.
From Coq Require Import Reals List Lia Lra Arith.
From Verif Require Import Num PyList Mat Colloc Ocp Transcribe Solve Hadapt Resid NumR.
Import ListNotations.
Open Scope list_scope.

Theorem one_phase_thm rc (mp : mpo Rnum) sw z ph segs :
  states_residuals rc mp sw z (Some [ph]) None false = Ok [(ph, segs)] <-> integrate_phase rc mp sw z ph None = Ok segs.
Proof.
  unfold states_residuals_by, states_residuals_phase_by. cbn [mapM]. unfold integrate_phase_by at 2.
  destruct (trajectories mp ph z sw) as [tr|e0] eqn:E0; cbn [bind].
  - destruct (at_ (r_grid rc) ph) as [g|e] eqn:E1; cbn [bind]; [|split; discriminate].
    destruct (residual_grid rc mp sw ph (Some g)) as [tg|e] eqn:E2; cbn [bind]; [|split; discriminate].
    assert (E : integrate_phase rc mp sw z ph tg = (it <- interpolate_phase_by rc mp (trajectories mp) sw z ph tg ;; mapM (integrate_seg mp sw ph it (tr_x tr)) (seq 0 (mp_nseg mp)))).
    { unfold integrate_phase_by. nred. rewrite E0. cbn [bind]. destruct tg as [l|]; [reflexivity|]. rewrite E1. cbn [bind]. rewrite E2. reflexivity. }
    nred. rewrite E. match goal with |- _ <-> ?x = Ok segs => destruct x as [sg|] end; cbn [bind]; [|split; discriminate].
    split; intros H; injection H as ->; reflexivity.
  - split; [|discriminate]. destruct (at_ (r_grid rc) ph) as [g|e]; cbn [bind]; [|discriminate]. destruct (residual_grid rc mp sw ph (Some g)) as [tg|e]; cbn [bind]; [|discriminate].
    unfold integrate_phase_by. nred. rewrite E0. discriminate.
Qed.
