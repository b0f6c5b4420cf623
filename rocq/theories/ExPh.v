(** Worked examples for the refinement of widths and orders. *)
From Coq Require Import String.
From Coq Require Import Reals.
From Coq Require Import List Lia Lra Bool Arith.
From Verif Require Import Num PyList Mat Colloc Ocp Transcribe Solve Hadapt Resid Ph
  Spec SpecOcp SpecHadapt SpecResid SpecPh
  NumR ListR HadaptR BlockR ExOcp ResidR ResidMain ExResid GridThm RefineThm PostMain PostTotal PhR.
Import ListNotations.
Open Scope R_scope.
Open Scope list_scope.

(** a solver which always returns the same vector *)
Definition same_run (z : list R) : list (solved (N := Rnum)) -> mpo Rnum -> list R -> res (list R) := fun _ _ _ => Ok z.
Definition rich_z : list R := repeat 1 (2 * nvars rich_mp).
Lemma rich_equal : equal_widths rich_mp = repeat (1 / 3) 6.
Proof. unfold equal_widths. cbn [rich_mp mp_nseg mp_ocp rich o_nph]. rewrite nofnat_R. nred. f_equal. replace (INR 3) with 3 by (cbn; lra). reflexivity. Qed.
Lemma rich_equal_input : input_ok rich_mp rich_npath rich_nterm rich_z (equal_widths rich_mp).
Proof. constructor; [exact rich_mp_ok|exact rich_ok|exact rich_scales|apply repeat_length|rewrite rich_equal; reflexivity]. Qed.
Definition rich_rc : rcfg := Rcfg 9 ["spectral"; "spectral"]%string.

Lemma seg_residual_total nx (s : segstate (N := Rnum)) : (1 <= nx)%nat -> ss_r s <> [] -> exists v, seg_residual (N := Rnum) nx (Some s) = Ok v.
Proof.
  intros Hnx Hr. cbn [seg_residual].
  destruct (mapM_total (fun j => max_ (N := Rnum) (map (fun row => nabs (nth j row n0)) (ss_r s))) (seq 0 nx)) as (cols & Ec & _).
  { intros j _. destruct (max_spec (map (fun row => @nabs Rnum (nth j row (@n0 Rnum))) (ss_r s))) as (v & Ev & _); [|exists v; exact Ev].
    intros C. apply map_eq_nil in C. contradiction. }
  rewrite Ec. cbn [bind]. pose proof (mapM_length _ _ _ Ec) as L. rewrite seq_length in L.
  destruct (max_spec cols) as (v & Ev & _); [intros C; rewrite C in L; cbn in L; lia|]. exists v. exact Ev.
Qed.

Lemma states_relative rc (mp : mpo Rnum) sw z nodes phases res : states_residuals rc mp sw z (Some phases) nodes false = Ok res ->
  states_residuals rc mp sw z (Some phases) nodes true = Ok (map (fun '(ph, segs) =>
    (ph, map (option_map (fun s => Segstate (ss_x s) (ss_u s) (ss_t s) (map (fun row => vquot (N := Rnum) row (col_max (o_nx (mp_ocp mp)) (map (option_map (@ss_x Rnum)) segs))) (ss_r s)))) segs)) res).
Proof.
  unfold states_residuals_by. revert res. induction phases as [|ph phases IH]; intros res E; cbn [mapM] in *; [inversion E; reflexivity|].
  unfold states_residuals_phase_by in *. match type of E with bind (bind (bind ?m _) _) _ = _ => destruct m as [tg|]; [|discriminate E] end. cbn [bind] in *.
  destruct (integrate_phase rc mp sw z ph tg) as [s|]; [|discriminate E]. cbn [bind] in *.
  match type of E with bind ?m _ = _ => destruct m as [r|]; [|discriminate E] end. cbn [bind] in *.
  inversion E; subst res. rewrite (IH r eq_refl). reflexivity.
Qed.

(** residuals at the Gauss points of every segment exist *)
Lemma states_spectral rc (mp : mpo Rnum) npath nterm z p : input_ok mp npath nterm z p -> widths_ok (mp_nseg mp) (o_nph (mp_ocp mp)) p -> (1 <= o_nx (mp_ocp mp))%nat ->
  (forall ph, (ph < o_nph (mp_ocp mp))%nat -> nth_error (r_grid rc) ph = Some "spectral"%string) ->
  exists rs ms, states_residuals rc mp p z None None true = Ok rs /\ max_residuals (N := Rnum) (o_nx (mp_ocp mp)) rs = Ok ms.
Proof.
  intros Hin Hw Hnx Hg. pose proof (in_mpo _ _ _ _ _ Hin) as Hmp.
  destruct (spectral_grid_thm rc mp p 0 Hmp) as (sp & Es & Ls & _).
  assert (HG : forall ph, (ph < o_nph (mp_ocp mp))%nat -> exists g, nth_error (r_grid rc) ph = Some g /\ residual_grid rc mp p ph (Some g) = Ok (Some sp)).
  { intros ph Hph. exists "spectral"%string. split; [apply Hg, Hph|exact Es]. }
  assert (Lsp : length sp = length (mp_orders mp)) by (apply (f_equal (@length nat)) in Ls; rewrite !map_length in Ls; exact Ls).
  assert (Hne : forall pts, In pts sp -> pts <> []).
  { intros pts Hp C. apply (in_map (@length R)) in Hp. rewrite Ls in Hp. apply in_map_iff in Hp. destruct Hp as (q & Hq & _). rewrite C in Hq. discriminate Hq. }
  rewrite (states_auto rc mp p z true (fun _ => sp)) by exact HG.
  set (nodes := map (fun _ => sp) (seq 0 (o_nph (mp_ocp mp)))).
  destruct (states_all rc mp npath nterm z p nodes (seq 0 (o_nph (mp_ocp mp))) Hin) as (rs & r & _ & E & Ef & H).
  { unfold nodes. now rewrite map_length, seq_length. }
  { intros taus Ht. apply in_map_iff in Ht. destruct Ht as (ph & <- & _). split; [exact Lsp|]. intros pts Hp.
    pose proof (sh_nph _ (ok_shapes _ _ _ (in_ocp _ _ _ _ _ Hin))) as Hn.
    destruct (grid_nodup rc mp p 0 "spectral"%string Hmp (proj2 Hw 0%nat ltac:(lia)) ltac:(cbn; auto)) as (ts & Ets & _ & Hnd). nred. rewrite Es in Ets. injection Ets as <-. apply Hnd, Hp. }
  { intros ph Hph. apply in_seq in Hph. lia. }
  pose proof (states_relative _ _ _ _ _ _ _ E) as E2. match type of E2 with _ = Ok ?r => set (R := r) in E2; exists R end.
  destruct (mapM_total (fun '(_, segs) => mapM (seg_residual (N := Rnum) (o_nx (mp_ocp mp))) segs) R) as (ms & Em & _); [|exists ms; split; [exact E2|exact Em]].
  intros x Hx. unfold R in Hx. apply in_map_iff in Hx. destruct Hx as ((ph & segs) & <- & Hx). destruct (H ph segs Hx) as (L & Hp & Hq & Hv).
  match goal with |- exists y, mapM ?f ?l = _ => destruct (mapM_total f l) as (y & Ey & _); [|exists y; exact Ey] end.
  intros e He. apply in_map_iff in He. destruct He as (e' & <- & He). apply In_nth_error in He. destruct He as (k & Hk).
  assert (Hlt : (k < length (mp_orders mp))%nat) by (rewrite <- L; apply nth_error_Some; nred; rewrite Hk; discriminate).
  assert (Hnph : (ph < o_nph (mp_ocp mp))%nat). { assert (X : In ph (map fst r)) by (apply in_map_iff; exists (ph, segs); auto). rewrite Ef in X. apply in_seq in X. lia. }
  assert (En : nth_error (nth ph nodes []) k = Some (nth k sp [])).
  { assert (Es2 : nth ph nodes [] = sp) by (exact (nth_map_seq (fun _ => sp) _ ph [] Hnph)). rewrite Es2. apply nth_error_nth'. nred. lia. }
  destruct (Hp k Hlt) as (cx & cu & Hc). destruct (Hq k _ cx cu En) as (cq & Hcq). specialize (Hv k _ cx cu cq En Hc Hcq).
  assert (Hne' : nth k sp [] <> []) by (apply Hne, nth_In; nred; lia). nred. rewrite Hk in Hv. destruct (nth k sp []) as [|x0 pts]; [contradiction|].
  injection Hv as ->. cbn [option_map]. apply seg_residual_total; [exact Hnx|]. cbn. discriminate.
Qed.

Lemma rich_spectral : forall ph, (ph < o_nph (mp_ocp rich_mp))%nat -> nth_error (r_grid rich_rc) ph = Some "spectral"%string.
Proof. intros ph Hph. cbn in Hph. destruct ph as [|[|]]; [reflexivity..|lia]. Qed.

(** the rest of solve_ph stops after one call when the tolerance is met *)
Lemma rich_returns : exists tol, forall k, ph_rest (Phcfg (N := Rnum) 1 16 1 20 tol 1 rich_rc) (same_run rich_z) None rich_mp (S k) [] =
  ([(rich_mp, equal_widths rich_mp)], Ok rich_z).
Proof.
  destruct (states_spectral rich_rc rich_mp _ _ rich_z _ rich_equal_input (equal_widths_ok rich_mp ltac:(cbn; lia)) ltac:(cbn; lia) rich_spectral) as (rs & ms & Er & Em).
  assert (Hb : exists tol, forall m v, In m ms -> In v m -> v <= tol).
  { clear Em. induction ms as [|m ms IH]; [exists 0; intros m v []|]. destruct IH as (t & Ht).
    assert (Hm : exists u, forall v, In v m -> v <= u). { clear. induction m as [|a m IH]; [exists 0; intros v []|]. destruct IH as (u & Hu). exists (Rmax a u).
      intros v [<-|Hv]; [apply Rmax_l|]. apply Rle_trans with u; [apply Hu, Hv|apply Rmax_r]. }
    destruct Hm as (u & Hu). exists (Rmax t u). intros m' v [<-|Hm'] Hv; [apply Rle_trans with u; [apply Hu, Hv|apply Rmax_r]|apply Rle_trans with t; [apply (Ht m'); auto|apply Rmax_l]]. }
  destruct Hb as (tol & Hb). exists tol. intros k.
  set (pc := Phcfg 1 16 1 20 tol 1 rich_rc).
  assert (Ef : forallb any (map (status pc) ms) = false).
  { assert (Hlim : (ph_min pc <= ph_max pc)%nat) by (cbn; lia). destruct (max_res_len pc Hlim (o_nx (mp_ocp rich_mp)) rich_mp _ _ _ _ _ Er Em) as (L & _). destruct ms as [|m ms]; [cbn in L; discriminate L|]. cbn [map forallb].
    replace (any (status pc m)) with false; [reflexivity|]. symmetry. unfold any, status. apply not_true_is_false. intros C. apply existsb_exists in C.
    destruct C as (b & Hin & ->). apply in_map_iff in Hin. destruct Hin as (v & Hv & Hin). unfold Rnum in Hv; cbn [nltb] in Hv. unfold Rltb in Hv.
    destruct (Rlt_dec _ _) as [Hlt|]; [|discriminate Hv]. apply (Rlt_not_le _ _ Hlt). apply (Hb m); [cbn; auto|exact Hin]. }
  unfold ph_rest. cbn [ph_loop]. unfold wbind at 1. unfold ph_pass. unfold wbind at 1, ph_solve at 1. cbn [rich_mp mp_orders mp_nseg length Nat.eqb assert_].
  unfold wbind at 1, wlift at 1. cbn [app same_run bind]. fold rich_mp. unfold wbind at 1, wlift at 1. change (ph_rc pc) with rich_rc. nred. rewrite Er.
  unfold wbind at 1, wlift at 1. cbn [mp_ocp rich_mp]. cbn [mp_ocp rich_mp] in Em. rewrite Em. rewrite Ef. reflexivity.
Qed.
(** two halves of the first of two segments *)
Lemma halved : refined [(3%nat, 1 / 4); (5%nat, 3 / 4)] [true; false] = [(3%nat, 1 / 4 / 2); (3%nat, 1 / 4 / 2); (5%nat, 3 / 4)].
Proof. reflexivity. Qed.
