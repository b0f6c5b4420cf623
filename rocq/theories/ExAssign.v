(** A problem with bounds on the slopes of the control, built by assignments. *)
From Coq Require Import Reals Lia Lra Bool Arith ZArith String.
From Coquelicot Require Import Coquelicot.
From Coq Require Import List.
From Verif Require Import Num PyList Mat Poly Roots Colloc Ocp Transcribe Objects Assign Spec SpecOcp SpecAssign NumR ListR PolyR CollocR CompR CollocThm JacobiR MeshR BlockR DiscR NlpR OcpR NlpThm GuessR CostR ScaleR ExOcp AssignR.
Import ListNotations.
Open Scope R_scope.

(** ** Integers *)
Lemma kept_exact x (f : ext R) : kept_slope (Fin x) f -> (f = Fin x <-> exists k, x = IZR k).
Proof.
  intros (x' & k & E & C & ->). injection E as <-. split.
  - intros E. injection E as E. exists k. auto.
  - intros [q ->]. f_equal. f_equal. apply (cut_unique (IZR q)); [exact C|]. unfold cut. split; [lra|]. split; [|nra].
    replace (IZR q - IZR q) with 0 by ring. rewrite Rabs_R0. lra.
Qed.
Lemma no_infinite nx nu nph na l1 l2 a i (v : ext R) : v = PInf \/ v = NInf \/ v = NaN ->
  ~ exists o, build nx nu nph na (l1 ++ SetSlope a i v :: l2) = Ok o.
Proof.
  intros Hv H. apply build_ok in H. destruct H as [_ H]. specialize (H (SetSlope a i v)).
  destruct H as [_ (x & k & E & _)]; [apply in_or_app; right; left; reflexivity|].
  destruct Hv as [Hv|[Hv|Hv]]; rewrite Hv in E; discriminate.
Qed.

(** ** Slope bounds of one half *)
Definition half_list : list (assign Rnum) :=
  [SetSwitch Idiff_u 0 (Fin 1); SetSlope Dlbdu 0 (Fin (-1 / 2)); SetSlope Dubdu (-1) (Fin (1 / 2))].
Definition sloped (lo hi : ext R) : ocp Rnum := with_slopes (demo 1 0 [1] true false [0] [0]) [lo] [hi].
Lemma half_cut x : Rabs x = 1 / 2 -> cut x 0.
Proof.
  intros H. unfold cut. rewrite H, Rabs_R0, Rminus_0_r. split; [lra|]. split; [lra|]. rewrite Rmult_0_r. lra.
Qed.
Lemma int_is x k : cut x k -> (- 2 ^ 63 <= k < 2 ^ 63)%Z -> to_int (N := Rnum) (Fin x) = Ok k.
Proof.
  intros C B. pose proof (to_int_spec (Fin x)) as T. destruct (to_int (Fin x)) as [q|e].
  - destruct T as (x' & E & C' & _). injection E as <-. rewrite (cut_unique x q k C' C). reflexivity.
  - destruct T. exists x, k. auto.
Qed.
Lemma half_built : build 1 1 1 0 half_list = Ok (sloped (Fin 0) (Fin 0)).
Proof.
  assert (I1 : to_int (N := Rnum) (Fin 1) = Ok 1%Z) by (apply int_is; [unfold cut; replace (1 - 1) with 0 by ring; rewrite Rabs_R0; lra|lia]).
  assert (I2 : to_int (N := Rnum) (Fin (-1 / 2)) = Ok 0%Z) by (apply int_is; [apply half_cut; rewrite Rabs_left; lra|lia]).
  assert (I3 : to_int (N := Rnum) (Fin (1 / 2)) = Ok 0%Z) by (apply int_is; [apply half_cut; rewrite Rabs_right; lra|lia]).
  unfold build, half_list, put_int. cbn - [to_int]. nred. rewrite I1. cbn - [to_int]. unfold put_int. cbn - [to_int]. nred. rewrite I2. cbn - [to_int]. nred. unfold put_int. cbn - [to_int]. nred. rewrite I3. reflexivity.
Qed.
Section Sloped.
Variables lo hi : ext R.
Let d := sloped lo hi.
Definition sloped_mp : mpo Rnum := Mpo d 1 [1%nat] (demo_cf "LGR").
Lemma pos1 : forall s, In s [1] -> 0 < s.
Proof. intros s [<-|[]]. lra. Qed.
Lemma sloped_shapes : shapes_ok d.
Proof.
  destruct (demo_shapes 1 0 [1] true false [0] [0] eq_refl eq_refl eq_refl (le_n 1)) as [].
  constructor; assumption.
Qed.
Lemma sloped_ok : ocp_ok d (fun _ => None) (fun _ => None).
Proof.
  pose proof sloped_shapes as Sh.
  destruct (demo_ok 1 0 [1] true false [0] [0] eq_refl eq_refl eq_refl (le_n 1)) as [].
  constructor; try assumption; reflexivity.
Qed.
Lemma sloped_mp_ok : mpo_ok sloped_mp.
Proof.
  destruct (demo_mp_ok 1 0 [1] true false [0] [0] eq_refl eq_refl eq_refl (le_n 1) 1 (le_n 1)) as [].
  constructor; assumption.
Qed.
Lemma sloped_scales : scales_pos d.
Proof. constructor; cbn; [intros s [<-|[]]; lra|intros s [<-|[]]; lra|intros s []|lra]. Qed.
Definition slow : utraj := rest (fun i _ => INR i / 8) 0 1.
Lemma sloped_z : exists n, input_ok sloped_mp (fun _ => None) (fun _ => None) (pack sloped_mp (fun _ => slow)) [1] /\
  nlp_at sloped_mp (pack sloped_mp (fun _ => slow)) [1] = Ok n /\ (feasible n <-> within lo hi (1 / 16)).
Proof.
  destruct (feasible_pack sloped_mp _ _ (fun _ => slow) [1] sloped_mp_ok sloped_ok sloped_scales eq_refl) as (rs & n & R1 & R2 & R3 & _).
  assert (rs = [[-1; 1]]) as ->
    by (pose proof (eq_trans (eq_sym R1) (demo_roots 1 0 [1] true false [0] [0] 1)) as X; injection X as X; exact X).
  clear R1.
  exists n. split; [|split; [exact R2|]].
  { constructor; [exact sloped_mp_ok|exact sloped_ok|exact sloped_scales|apply length_pack|reflexivity]. }
  rewrite R3. split.
  - intros (_ & H & _). destruct (H 0%nat ltac:(cbn; lia)) as (_ & _ & A & _).
    specialize (A eq_refl 0%nat 0%nat 0%nat 0%nat [1 / 16; 1 / 16]).
    assert (Ho : owned (mp_orders sloped_mp) 0 0 0) by (exists 1%nat; cbn; repeat split; auto).
    assert (Hi : seg_interp (mp_orders sloped_mp) 0 (nth 0 [[-1; 1]] []) (fun i => y_u slow i 0) [1 / 16; 1 / 16]).
    { split; [cbn; lia|]. intros [|[|j]] Hj; [| |cbn in Hj; lia]; cbn; field. }
    specialize (A Ho ltac:(cbn; lia) Hi). rewrite (line_Derive _ (1 / 16) (1 / 16)) in A by (intros; cbn; field).
    cbn [sloped_mp mp_ocp d sloped with_slopes o_lbdu o_ubdu o_scale_u nth demo] in A. rewrite Rmult_1_l in A. exact A.
  - intros Hw. split; [|split; [|intros H; cbn in H; lia]].
    + intros ph Hph. cbn in Hph. assert (ph = 0)%nat as -> by lia. split; [|split; [|split; [|split]]].
      * intros i [|s] Hi Hs; [|cbn in Hs; lia]. cbn. destruct (Nat.eqb_spec i 0); [reflexivity|split; exact I].
      * intros i [|c] Hi Hc; [|cbn in Hc; lia]. split; exact I.
      * cbn. unfold bnd. cbn. split; cbn; lra.
      * cbn. unfold bnd. cbn. split; cbn; [lra|exact I].
      * intros i Hi. cbn in Hi. lia.
    + intros ph Hph. cbn in Hph. assert (ph = 0)%nat as -> by lia. split; [|split; [|split; [|split; [|split; [|]]]]].
      * intros i k j [|s] c Ho Hs Hc; [|cbn in Hs; lia]. pose proof (owned_seg sloped_mp i k j Ho) as Hk.
        cbn in Hk. pose proof (demo_line 1 k _ c Hk Hc) as Hl. cbn [slow rest y_x] in Hl.
        replace (seg_h (mp_cf sloped_mp) (width sloped_mp [1] 0) slow k * _) with ((0 - 0) / 2); [eapply line_derive; exact Hl|].
        cbn. nred. field.
      * intros i k j c Ho Hc. cbn in Hc. destruct Hc.
      * intros _ i k j q c Ho Hq Hc. pose proof (owned_seg sloped_mp i k j Ho) as Hk. cbn in Hk. assert (k = 0)%nat as -> by lia.
        cbn in Hq. assert (q = 0)%nat as -> by lia.
        pose proof (demo_line 1 0 _ c ltac:(lia) Hc) as Hl. rewrite (line_Derive _ _ _ _ Hl).
        replace (nth 0 (o_scale_u (mp_ocp sloped_mp)) 0 * _) with (1 / 16); [exact Hw|]. cbn. field.
      * intros _ k p' j [|c'] c Hk Hj Hq Hc; [|cbn in Hq; lia]. split; exact I.
      * intros H. cbn in H. discriminate.
      * intros c Hc. cbn in Hc. destruct Hc.
Qed.
End Sloped.
Lemma half_wrong : exists nx nu nph na l o mp z p n n',
  build nx nu nph na l = Ok o /\ last_given (gives_slope nph Dlbdu 0) l (Fin (-1 / 2)) /\ last_given (gives_slope nph Dubdu 0) l (Fin (1 / 2)) /\
  mp_ocp mp = o /\ input_ok mp (fun _ => None) (fun _ => None) z p /\
  nlp_at mp z p = Ok n /\ nlp_at (with_ocp mp (with_slopes o [Fin (-1 / 2)] [Fin (1 / 2)])) z p = Ok n' /\ feasible n' /\ ~ feasible n.
Proof.
  destruct (sloped_z (Fin 0) (Fin 0)) as (n & A1 & A2 & A3). destruct (sloped_z (Fin (-1 / 2)) (Fin (1 / 2))) as (n' & B1 & B2 & B3).
  exists 1%nat, 1%nat, 1%nat, 0%nat, half_list, (sloped (Fin 0) (Fin 0)), (sloped_mp (Fin 0) (Fin 0)),
    (pack (sloped_mp (Fin 0) (Fin 0)) (fun _ => slow)), [1], n, n'.
  split; [exact half_built|].
  split. { exists [SetSwitch Idiff_u 0 (Fin 1)], (SetSlope Dlbdu 0 (Fin (-1 / 2))), [SetSlope Dubdu (-1) (Fin (1 / 2))].
    split; [reflexivity|]. split; [exists 0%Z; split; [reflexivity|split; lia]|]. intros y w [<-|[]] (i & E & _). discriminate. }
  split. { exists [SetSwitch Idiff_u 0 (Fin 1); SetSlope Dlbdu 0 (Fin (-1 / 2))], (SetSlope Dubdu (-1) (Fin (1 / 2))), [].
    split; [reflexivity|]. split; [exists (-1)%Z; split; [reflexivity|split; cbn; lia]|]. intros y w []. }
  split; [reflexivity|]. split; [exact A1|]. split; [exact A2|]. split; [exact B2|].
  split; [apply B3; split; cbn; lra|]. rewrite A3. intros [_ H]. cbn in H. lra.
Qed.

(** ** The moon lander *)
Definition lander : list (assign Rnum) :=
  [ SetDynamics 0 (fun x u _ _ => Ok [nth 1 x 0; nth 0 u 0 - 3 / 2]); SetRunning 0 (fun _ u _ _ => Ok (Some (nth 0 u 0)));
    SetTerminal (-1) (fun xf _ _ _ _ => Ok (Some [nth 0 xf 0; nth 1 xf 0]));
    SetGuess Gx00 0 (Row [10; -2]); SetBound Blbu 0 (One (Fin 1)); SetBound Bubu 0 (Row [Fin 3]);
    SetBound Blbtf 0 (One (Fin 3)); SetBound Bubtf 0 (One (Fin 5)); SetBound Blbx 0 (Entry (-1) (Fin (-20)));
    SetBound Blbu 0 (One (Fin 0)) ].
Lemma cut_int k : cut (IZR k) k.
Proof. unfold cut. replace (IZR k - IZR k) with 0 by ring. rewrite Rabs_R0. split; [lra|]. split; [lra|nra]. Qed.
Lemma lander_fits x : In x lander -> fits 2 1 1 0 x.
Proof.
  assert (M0 : means 1 0 0) by (split; lia). assert (M1 : means 1 (-1) 0) by (split; lia).
  intros H. repeat (destruct H as [<-|H]; [cbn; unfold fits_row; eauto|]); [|destruct H].
  split; [eauto|]. exists 1%nat. split; lia.
Qed.
Lemma lander_built : exists o, build 2 1 1 0 lander = Ok o /\ nth 0 (nth 0 (o_lbu o) []) NaN = Fin 0 /\
  nth 1 (nth 0 (o_lbx o) []) NaN = Fin (-20) /\ ocp_ok o (fun _ => None) (fun _ => Some 2%nat).
Proof.
  destruct (build 2 1 1 0 lander) as [o|] eqn:Hb; [|vm_compute in Hb; discriminate].
  exists o. split; [reflexivity|]. pose proof Hb as Ho. vm_compute in Ho. injection Ho as <-.
  split; [reflexivity|]. split; [reflexivity|].
  match goal with |- ocp_ok ?q _ _ => set (oo := q) end.
  apply (built_ok 2 1 1 0 lander oo Hb); [repeat split|].
  split; [lia|]. split; [|split; [split; [|split; [|split; [|split]]]|discriminate]].
  - split; [|split; [|split; [|split; [|split]]]].
    + intros [|i] [|[|j]] Hi Hj; cbn in Hi, Hj; try lia; exact I.
    + intros [|i] [|j] Hi Hj; cbn in Hi, Hj; try lia. change (0 <= 3). lra.
    + intros i j Hi Hj; cbn in Hj; lia.
    + intros [|i] [|j] Hi Hj; cbn in Hi; try lia. change (0 <= 0). lra.
    + intros [|i] [|j] Hi Hj; cbn in Hi; try lia. change (3 <= 5). lra.
    + intros i j Hi Hj; cbn in Hi; lia.
  - intros ph f x u t a H _ _ _. one ph H; eexists; split; reflexivity.
  - intros ph f x u t a H _ _ _. one ph H; eexists; reflexivity.
  - intros ph f xf tf x0 t0 a H _ _ _. one ph H; eexists; reflexivity.
  - intros ph f x u t a H _ _ _. one ph H; reflexivity.
  - intros ph f xf tf x0 t0 a H _ _ _. one ph H; eexists; split; reflexivity.
Qed.
