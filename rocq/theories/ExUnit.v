(** The moon lander on the unit interval, and two phases that cannot be moved there (examples for C77). *)
From Coq Require Import Reals Lia Lra Psatz Bool Arith String.
From Coquelicot Require Import Coquelicot.
From Coq Require Import List.
From Verif Require Import Num PyList Mat Poly Roots Colloc Ocp Transcribe Spec SpecOcp SpecHadapt SpecExact SpecCoord SpecUnit NumR ListR NlpR NlpThm ScaleR ExactR UnitR ExOcp ExLander.
Import ListNotations.
Open Scope R_scope.

Lemma lander_unit cf K orders p : cfg_ok cf -> (1 <= K)%nat -> length orders = K -> cf_scheme cf = "LGR"%string -> widths_ok K 1 p -> (forall q, In q orders -> (4 <= q)%nat) ->
  let mp := Mpo lander K orders cf in
  exists (z z' : list R) n n', input_ok mp (fun _ => None) lander_nterm z p /\ length z' = nvars (unit_mpo mp) /\ on_unit mp z z' /\
    nlp_at mp z p = Ok n /\ nlp_at (unit_mpo mp) z' p = Ok n' /\ feasible n /\ feasible n' /\ n_f n = 19 / 2 /\ n_f n' = 19 / 2.
Proof.
  intros Hcf HK Hlen Hs Hw Hq mp. assert (Hpos : forall q, In q orders -> (1 <= q)%nat) by (intros q Hi; apply Hq in Hi; lia).
  destruct (lander_feasible cf K orders p Hcf HK Hlen Hs Hw Hq) as (z & n & Lz & En & Hf & HC).
  assert (Hmp : mpo_ok mp) by (constructor; cbn; assumption).
  assert (Hp : length p = (o_nph (mp_ocp mp) * mp_nseg mp)%nat) by (pose proof (proj1 Hw) as E0; change (o_nph (mp_ocp mp)) with 1%nat; change (mp_nseg mp) with K; nred; lia).
  assert (Hin : input_ok mp (fun _ => None) lander_nterm z p) by (constructor; [exact Hmp|exact lander_ok|exact lander_scales|change (o_nph (mp_ocp mp)) with 1%nat; rewrite Nat.mul_1_l; exact Lz|exact Hp]).
  destruct (proj1 (unit_exists mp _ _ p Hmp lander_ok lander_scales Hp) z) as (z' & Lz' & Hu). change (o_nph (mp_ocp mp)) with 1%nat in Lz'. rewrite Nat.mul_1_l in Lz'.
  destruct (unit_thm mp _ _ z z' p Hin eq_refl Lz' Hu) as (m & n' & Em & En' & HF & HE).
  assert (m = n) as -> by (pose proof (eq_trans (eq_sym Em) En) as X; injection X as X; exact X).
  exists z, z', n, n'. split; [exact Hin|]. split; [exact Lz'|]. split; [exact Hu|]. split; [exact En|]. split; [exact En'|]. split; [exact Hf|]. split; [apply HF; exact Hf|]. split; [exact HC|]. rewrite <- HE. exact HC.
Qed.
Lemma hop_unit : exists (mp : mpo Rnum) npath nterm p (z : list R) n, input_ok mp npath nterm z p /\ nlp_at mp z p = Ok n /\ feasible n /\
  forall (z' : list R) n', length z' = (o_nph (mp_ocp mp) * nvars (unit_mpo mp))%nat -> nlp_at (unit_mpo mp) z' p = Ok n' -> ~ feasible n'.
Proof.
  assert (Hmp : mpo_ok hop_mp).
  { constructor; cbn [hop_mp mp_cf mp_nseg mp_orders]; [apply demo_cf_ok; cbn; auto|reflexivity|lia|]. intros p [<-|[<-|[]]]; lia. }
  assert (Hw : widths_ok (mp_nseg hop_mp) (o_nph (mp_ocp hop_mp)) hop_p).
  { split; [reflexivity|]. intros [|[|ph]] Hph; [| |cbn in Hph; lia]; (split; [reflexivity|]; split; [intros x [<-|[<-|[]]]; lra|cbn; field]). }
  destruct (exact_thm hop_mp hop_npath hop_nterm hop_p hopping Hmp hop_ok hop_scales Hw) as (rs & Er & (z & Hz & Hsm) & HE).
  - intros [|[|[|ph]]]; split; reflexivity.
  - exact hop_solves.
  - exact hop_linked.
  - intros [|[|ph]] Hph q Hi; [| |cbn in Hph; lia]; cbn in Hi; destruct Hi as [<-|[<-|[]]]; split; intros; cbn; lia.
  - destruct (HE z Hz Hsm) as (n & En & Hf & _). exists hop_mp, hop_npath, hop_nterm, hop_p, z, n.
    split; [constructor; [exact Hmp|exact hop_ok|exact hop_scales|exact Hz|reflexivity]|]. split; [exact En|]. split; [exact Hf|].
    intros z' n' L E. apply (unit_links hop_mp _ _ hop_p z' n' Hmp hop_ok hop_scales (eq_refl : length hop_p = 4%nat)); [cbn; lia|exact L|exact E].
Qed.
