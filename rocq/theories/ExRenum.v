(** Two problems whose phases are numbered in another order (examples for C80). *)
From Coq Require Import Reals Lia Lra Bool Arith String.
From Coquelicot Require Import Coquelicot.
From Coq Require Import List.
From Verif Require Import Num PyList Mat Poly Roots Colloc Ocp Transcribe Spec SpecOcp SpecHadapt SpecCoord SpecExact SpecRenum NumR ListR PolyR CollocR CompR CollocThm MeshR BlockR DiscR NlpR OcpR NlpThm ScaleR CostR ExactR ExOcp ExNlp ExLander TrackR RenumR.
Import ListNotations.
Open Scope R_scope.

Lemma shaped3 {T} (a b d : list T) c : length a = c -> length b = c -> length d = c -> shaped [a; b; d] 3 c.
Proof. intros Ha Hb Hd. split; [reflexivity|]. intros r [<-|[<-|[<-|[]]]]; auto. Qed.
Ltac three ph H := destruct ph as [|[|[|ph]]]; cbn in H;
  [injection H as <-|injection H as <-|injection H as <-|exfalso; destruct ph; discriminate].

(** three phases: climb, cruise, and after a jump climb again *)
Definition relay : ocp Rnum :=
  Ocp (N := Rnum) 1 1 0 3
    [fun _ u _ _ => Ok [nth 0 u 0]; fun _ u _ _ => Ok [nth 0 u 0 - 1]; fun _ u _ _ => Ok [2 * nth 0 u 0 - 1]]
    [fun _ _ _ _ => Ok None; fun _ _ _ _ => Ok None; fun x _ t _ => Ok (Some [nth 0 x 0 - t])]
    [fun _ _ _ _ _ => Ok (Some 0); fun _ _ _ _ _ => Ok (Some 0); fun xf _ _ _ _ => Ok (Some (nth 0 xf 0))]
    [fun _ _ _ _ => Ok (Some 0); fun x _ _ _ => Ok (Some (nth 0 x 0)); fun _ _ _ _ => Ok (Some 0)]
    [fun _ _ _ _ _ => Ok None; fun _ tf _ _ _ => Ok (Some [tf - 2]); fun _ tf _ _ _ => Ok (Some [tf - 3])] [(0, 1); (1, 2)]%nat
    [1] [2] [] (1 / 2) [[0]; [1]; [1]] [[1]; [1]; [1]] [[0]; [0]; [0]] [[0]; [0]; [0]] [[0]; [1]; [2]] [[1]; [2]; [3]] [[]; []; []]
    [[Fin 0]; [Fin 0]; [Fin 0]] [[PInf]; [Fin 1]; [PInf]] [[Fin (-1)]; [Fin 0]; [Fin (-1)]] [[Fin 1]; [Fin 1]; [Fin 1]] [[]; []; []] [[]; []; []]
    [[Fin 0]; [Fin 0]; [Fin 0]] [[Fin 0]; [PInf]; [PInf]] [[Fin 1]; [Fin 1]; [Fin 2]] [[Fin 1]; [PInf]; [PInf]]
    [[Fin 0]; [Fin (- (1 / 2))]] [[Fin 0]; [Fin (- (1 / 2))]]
    [false; false; false] [Fin (-15); Fin (-15); Fin (-15)] [Fin 15; Fin 15; Fin 15] [true; true; true] [false; false; false].
(** the same with the last two phases exchanged and the links listed the other way round *)
Definition relay' : ocp Rnum :=
  Ocp (N := Rnum) 1 1 0 3
    [fun _ u _ _ => Ok [nth 0 u 0]; fun _ u _ _ => Ok [2 * nth 0 u 0 - 1]; fun _ u _ _ => Ok [nth 0 u 0 - 1]]
    [fun _ _ _ _ => Ok None; fun x _ t _ => Ok (Some [nth 0 x 0 - t]); fun _ _ _ _ => Ok None]
    [fun _ _ _ _ _ => Ok (Some 0); fun xf _ _ _ _ => Ok (Some (nth 0 xf 0)); fun _ _ _ _ _ => Ok (Some 0)]
    [fun _ _ _ _ => Ok (Some 0); fun _ _ _ _ => Ok (Some 0); fun x _ _ _ => Ok (Some (nth 0 x 0))]
    [fun _ _ _ _ _ => Ok None; fun _ tf _ _ _ => Ok (Some [tf - 3]); fun _ tf _ _ _ => Ok (Some [tf - 2])] [(2, 1); (0, 2)]%nat
    [1] [2] [] (1 / 2) [[0]; [1]; [1]] [[1]; [1]; [1]] [[0]; [0]; [0]] [[0]; [0]; [0]] [[0]; [2]; [1]] [[1]; [3]; [2]] [[]; []; []]
    [[Fin 0]; [Fin 0]; [Fin 0]] [[PInf]; [PInf]; [Fin 1]] [[Fin (-1)]; [Fin (-1)]; [Fin 0]] [[Fin 1]; [Fin 1]; [Fin 1]] [[]; []; []] [[]; []; []]
    [[Fin 0]; [Fin 0]; [Fin 0]] [[Fin 0]; [PInf]; [PInf]] [[Fin 1]; [Fin 2]; [Fin 1]] [[Fin 1]; [PInf]; [PInf]]
    [[Fin (- (1 / 2))]; [Fin 0]] [[Fin (- (1 / 2))]; [Fin 0]]
    [false; false; false] [Fin (-15); Fin (-15); Fin (-15)] [Fin 15; Fin 15; Fin 15] [true; true; true] [false; false; false].
Definition exch (i : nat) : nat := match i with 1%nat => 2%nat | 2%nat => 1%nat | _ => i end.
Definition relay_npath (ph : nat) : option nat := match ph with 2%nat => Some 1%nat | _ => None end.
Definition relay_nterm (ph : nat) : option nat := match ph with 0%nat => None | _ => Some 1%nat end.
Definition relay_npath' (ph : nat) : option nat := match ph with 1%nat => Some 1%nat | _ => None end.
Ltac three_phases :=
  constructor;
  [ constructor; cbn; auto; try (apply shaped3; reflexivity);
    [ split; [reflexivity|]; intros _; split; [reflexivity|]; intros r [<-|[<-|[]]]; reflexivity
    | split; [reflexivity|]; intros _; split; [reflexivity|]; intros r [<-|[<-|[]]]; reflexivity
    | intros [|[|[|i]]] [|j] Hi Hj; try lia; cbn; auto; lra
    | intros [|[|[|i]]] [|j] Hi Hj; try lia; cbn; auto; lra
    | intros i j Hi Hj; lia
    | intros [|[|[|i]]] [|j] Hi Hj; try lia; cbn; auto; lra
    | intros [|[|[|i]]] [|j] Hi Hj; try lia; cbn; auto; lra
    | intros [|[|i]] [|j] Hi Hj; try lia; cbn; auto; lra ]
  | cbn; lia
  | intros ph f x u t a H _ _ _; three ph H; eexists; split; reflexivity
  | intros ph f x u t a H _ _ _; three ph H; eexists; reflexivity
  | intros ph f xf tf x0 t0 a H _ _ _; three ph H; eexists; reflexivity
  | intros ph f x u t a H _ _ _; three ph H; cbn; first [reflexivity|eexists; split; reflexivity]
  | intros ph f xf tf x0 t0 a H _ _ _; three ph H; cbn; first [reflexivity|eexists; split; reflexivity]
  | reflexivity | reflexivity | reflexivity | reflexivity | reflexivity
  | intros; cbn; lia
  | intros i j [H|[H|[]]]; injection H as <- <-; cbn; lia
  | cbn; lia
  | intros _ H; discriminate H ].
Lemma relay_ok : ocp_ok relay relay_npath relay_nterm.
Proof. three_phases. Qed.
Lemma relay_ok' : ocp_ok relay' relay_npath' relay_nterm.
Proof. three_phases. Qed.
Lemma relay_scales : scales_pos relay.
Proof. constructor; cbn; [intros s [<-|[]]; lra|intros s [<-|[]]; lra|intros s []|lra]. Qed.
Lemma relay_scales' : scales_pos relay'.
Proof. constructor; cbn; [intros s [<-|[]]; lra|intros s [<-|[]]; lra|intros s []|lra]. Qed.
Lemma relay_renumbered : renumbered exch relay relay'.
Proof.
  constructor; try (intros [|[|[|i]]] Hi; [| | |cbn in Hi; lia]; repeat split; reflexivity).
  - repeat split; reflexivity.
  - reflexivity.
  - intros [|[|[|i]]] Hi; cbn in *; lia.
  - intros [|[|[|i]]] [|[|[|j]]] Hi Hj E; cbn in *; try lia; discriminate E.
  - intros [|[|k]] i j H; cbn in H; [| |destruct k; discriminate H]; injection H as <- <-; [exists 1%nat|exists 0%nat]; repeat split; reflexivity.
  - intros [|[|k]] i j H; cbn in H; [| |destruct k; discriminate H]; injection H as <- <-; [exists 1%nat, 0%nat, 2%nat|exists 0%nat, 2%nat, 1%nat]; repeat split; reflexivity.
Qed.
Definition relaying (ph : nat) : ptraj :=
  match ph with
  | 0%nat => Ptraj (fun _ => [0; 1]) (fun _ => [1]) 0 1 (fun _ => 0)
  | 1%nat => Ptraj (fun _ => [1]) (fun _ => [1]) 1 2 (fun _ => 0)
  | _ => Ptraj (fun _ => [- (3 / 2); 1]) (fun _ => [1]) 2 3 (fun _ => 0)
  end.
Ltac line e := apply (is_derive_ext e); [intros x; match goal with |- @eq _ ?a ?b => change (@eq R a b) end; cbn; lra|]; auto_derive; [exact I|]; cbn; match goal with |- @eq _ ?a ?b => change (@eq R a b) end; lra.
Lemma relay_solves : forall ph, (ph < 3)%nat -> solves relay ph (relaying ph).
Proof.
  intros [|[|[|ph]]] Hph; [| | |lia]; (constructor; cbn [relaying p_t0 p_tf p_x p_u p_a];
    [lra| |try (intros t c _ []; fail)|try (intros c []; fail)|try (intros s E; discriminate E)| |intros t [|c] Ht Hc; [|cbn in Hc; lia]; split; cbn; lra|split; cbn; first [exact I|lra]|split; cbn; first [exact I|lra]|intros i Hi; cbn in Hi; lia]).
  - intros t [|s] Ht Hs; [|cbn in Hs; lia]. line (fun t : R => t).
  - intros [|s] _ Hs; [|cbn in Hs; lia]. cbn. field.
  - intros t [|s] Ht Hs; [|cbn in Hs; lia]. split; cbn; [lra|exact I].
  - intros t [|s] Ht Hs; [|cbn in Hs; lia]. line (fun t : R => 1).
  - intros c Hc. cbn in Hc. destruct Hc as [<-|[]]. lra.
  - intros t [|s] Ht Hs; [|cbn in Hs; lia]. split; cbn; lra.
  - intros t [|s] Ht Hs; [|cbn in Hs; lia]. line (fun t : R => t - 3 / 2).
  - intros t c Ht Hc. cbn in Hc. destruct Hc as [<-|[]]. lra.
  - intros c Hc. cbn in Hc. destruct Hc as [<-|[]]. lra.
  - intros t [|s] Ht Hs; [|cbn in Hs; lia]. split; cbn; [lra|exact I].
Qed.
Lemma relay_linked : linked relay relaying.
Proof.
  intros [|[|k]] i j H; cbn in H; [| |destruct k; discriminate H]; injection H as <- <-; (split; [|split; [|reflexivity]]).
  - intros [|s] Hs; [|cbn in Hs; lia]. split; cbn; lra.
  - intros [|c] Hc; [|cbn in Hc; lia]. reflexivity.
  - intros [|s] Hs; [|cbn in Hs; lia]. split; cbn; lra.
  - intros [|c] Hc; [|cbn in Hc; lia]. reflexivity.
Qed.
Definition relay_mp : mpo Rnum := Mpo relay 2 [2; 3]%nat (demo_cf "LGR").
Definition relay_mp' : mpo Rnum := Mpo relay' 2 [2; 3]%nat (demo_cf "LGR").
Definition relay_p : list R := [1 / 4; 3 / 4; 1 / 3; 2 / 3; 1 / 5; 4 / 5].
Lemma relay_case : exists z z' p' n n', input_ok relay_mp relay_npath relay_nterm z relay_p /\ input_ok relay_mp' relay_npath' relay_nterm z' p' /\
  same_phases exch relay_mp relay_mp' z relay_p z' p' /\ nlp_at relay_mp z relay_p = Ok n /\ nlp_at relay_mp' z' p' = Ok n' /\ feasible n /\ feasible n' /\ n_f n = 5 / 2 /\ n_f n' = 5 / 2.
Proof.
  assert (Hmp : mpo_ok relay_mp).
  { constructor; cbn [relay_mp mp_cf mp_nseg mp_orders]; [apply demo_cf_ok; cbn; auto|reflexivity|lia|]. intros p [<-|[<-|[]]]; lia. }
  assert (Hw : widths_ok (mp_nseg relay_mp) (o_nph (mp_ocp relay_mp)) relay_p).
  { split; [reflexivity|]. intros [|[|[|ph]]] Hph; [| | |cbn in Hph; lia]; (split; [reflexivity|]; split; [intros x [<-|[<-|[]]]; lra|cbn; field]). }
  destruct (exact_thm relay_mp relay_npath relay_nterm relay_p relaying Hmp relay_ok relay_scales Hw) as (rs & Er & (z & Hz & Hsm) & HE).
  - intros [|[|[|[|ph]]]]; split; reflexivity.
  - exact relay_solves.
  - exact relay_linked.
  - intros [|[|[|ph]]] Hph q Hi; [| | |cbn in Hph; lia]; cbn in Hi; destruct Hi as [<-|[<-|[]]]; split; intros; cbn; lia.
  - destruct (HE z Hz Hsm) as (n & En & Hf & HC).
    assert (Hin : input_ok relay_mp relay_npath relay_nterm z relay_p) by (constructor; [exact Hmp|exact relay_ok|exact relay_scales|exact Hz|reflexivity]).
    destruct (renum_exists exch relay_mp relay_mp' eq_refl eq_refl eq_refl relay_renumbered relay_npath relay_nterm relay_npath' relay_nterm z relay_p Hin relay_ok' relay_scales') as (z' & p' & Hin' & Hs).
    destruct (renum_thm exch relay_mp relay_mp' eq_refl eq_refl eq_refl relay_renumbered relay_npath relay_nterm relay_npath' relay_nterm z relay_p z' p' eq_refl Hin Hin' Hs) as (n1 & n' & En1 & En' & HF & HV).
    assert (n1 = n) as -> by (pose proof (eq_trans (eq_sym En1) En) as X; injection X as X; exact X).
    assert (V : n_f n = 5 / 2).
    { nred. rewrite (HC (fun ph => match ph with 1%nat => [1] | _ => [0] end)).
      + change (o_nph (mp_ocp relay_mp)) with 3%nat. cbn [Rsum]. unfold exact_cost. rewrite !RInt_peval. cbn. field.
      + intros [|[|[|ph]]] Hph t Ht; [| | |cbn in Hph; lia]; cbn; field.
      + left. split; [reflexivity|]. intros [|[|[|ph]]] q Hph Hi; [| | |cbn in Hph; lia]; cbn in Hi; destruct Hi as [<-|[<-|[]]]; cbn; lia. }
    exists z, z', p', n, n'. split; [exact Hin|]. split; [exact Hin'|]. split; [exact Hs|]. split; [exact En|]. split; [exact En'|]. split; [exact Hf|]. split; [apply HF; exact Hf|]. split; [exact V|]. exact (eq_trans (eq_sym HV) V).
Qed.

(** ** the first phase exchanged with the second *)
Definition poh : ocp Rnum :=
  Ocp (N := Rnum) 1 1 0 2
    [fun _ u _ _ => Ok [nth 0 u 0]; fun _ u _ _ => Ok [nth 0 u 0]] [fun x _ t _ => Ok (Some [nth 0 x 0 - t]); fun _ _ _ _ => Ok None]
    [fun xf _ _ _ _ => Ok (Some (nth 0 xf 0)); fun _ _ _ _ _ => Ok (Some 0)]
    [fun x _ _ _ => Ok (Some (nth 0 x 0 * nth 0 x 0)); fun x _ _ _ => Ok (Some (nth 0 x 0 * nth 0 x 0))]
    [fun xf tf _ _ _ => Ok (Some [tf - 2]); fun _ _ _ _ _ => Ok None] [(1, 0)]%nat
    [1] [2] [] (1 / 2) [[0]; [0]] [[1]; [1]] [[0]; [0]] [[0]; [0]] [[1]; [0]] [[2]; [1]] [[]; []]
    [[Fin 0]; [Fin 0]] [[PInf]; [PInf]] [[Fin (-1)]; [Fin (-1)]] [[Fin 1]; [Fin 1]] [[]; []] [[]; []]
    [[Fin 0]; [Fin 0]] [[PInf]; [Fin 0]] [[Fin 1]; [Fin 1]] [[PInf]; [Fin 1]] [[Fin (- (1 / 2))]] [[Fin (- (1 / 2))]]
    [false; false] [Fin (-15); Fin (-15)] [Fin 15; Fin 15] [true; true] [false; false].
Definition poh_count (ph : nat) : option nat := match ph with 0%nat => Some 1%nat | _ => None end.
Lemma poh_ok : ocp_ok poh poh_count poh_count.
Proof.
  constructor.
  { constructor; cbn; auto; try (apply shaped2; reflexivity).
    - split; [reflexivity|]. intros _. split; [reflexivity|]. intros r [<-|[]]; reflexivity.
    - split; [reflexivity|]. intros _. split; [reflexivity|]. intros r [<-|[]]; reflexivity.
    - intros [|[|i]] [|j] Hi Hj; try lia; cbn; auto; lra.
    - intros [|[|i]] [|j] Hi Hj; try lia; cbn; auto; lra.
    - intros i j Hi Hj; lia.
    - intros [|[|i]] [|j] Hi Hj; try lia; cbn; auto; lra.
    - intros [|[|i]] [|j] Hi Hj; try lia; cbn; auto; lra.
    - intros [|i] [|j] Hi Hj; try lia; cbn; auto; lra. }
  - cbn; lia.
  - intros ph f x u t a H _ _ _. two ph H; eexists; split; reflexivity.
  - intros ph f x u t a H _ _ _. two ph H; eexists; reflexivity.
  - intros ph f xf tf x0 t0 a H _ _ _. two ph H; eexists; reflexivity.
  - intros ph f x u t a H _ _ _. two ph H; cbn; [eexists; split; reflexivity|reflexivity].
  - intros ph f xf tf x0 t0 a H _ _ _. two ph H; cbn; [eexists; split; reflexivity|reflexivity].
  - reflexivity.
  - reflexivity.
  - reflexivity.
  - reflexivity.
  - reflexivity.
  - intros; cbn; lia.
  - intros i j [H|[]]. injection H as <- <-. cbn. lia.
  - cbn. lia.
  - intros _ H. discriminate H.
Qed.
Lemma poh_scales : scales_pos poh.
Proof. constructor; cbn; [intros s [<-|[]]; lra|intros s [<-|[]]; lra|intros s []|lra]. Qed.
Definition poh_mp : mpo Rnum := Mpo poh 2 [2; 3]%nat (demo_cf "LGR").
Definition flip (i : nat) : nat := match i with 0%nat => 1%nat | 1%nat => 0%nat | _ => i end.
Lemma poh_renumbered : renumbered flip hop poh.
Proof.
  constructor; try (intros [|[|i]] Hi; [| |cbn in Hi; lia]; repeat split; reflexivity).
  - repeat split; reflexivity.
  - reflexivity.
  - intros [|[|i]] Hi; cbn in *; lia.
  - intros [|[|i]] [|[|j]] Hi Hj E; cbn in *; try lia; discriminate E.
  - intros [|k] i j H; cbn in H; [|destruct k; discriminate H]; injection H as <- <-. exists 0%nat; repeat split; reflexivity.
  - intros [|k] i j H; cbn in H; [|destruct k; discriminate H]; injection H as <- <-. exists 0%nat, 1%nat, 0%nat; repeat split; reflexivity.
Qed.
Lemma first_matters : exists sg mp mp' npath nterm npath' nterm' z p z' p' n n', input_ok mp npath nterm z p /\ input_ok mp' npath' nterm' z' p' /\
  mp_nseg mp' = mp_nseg mp /\ mp_orders mp' = mp_orders mp /\ mp_cf mp' = mp_cf mp /\ renumbered sg (mp_ocp mp) (mp_ocp mp') /\ same_phases sg mp mp' z p z' p' /\
  nlp_at mp z p = Ok n /\ nlp_at mp' z' p' = Ok n' /\ feasible n /\ ~ feasible n'.
Proof.
  assert (Hmp : mpo_ok hop_mp).
  { constructor; cbn [hop_mp mp_cf mp_nseg mp_orders]; [apply demo_cf_ok; cbn; auto|reflexivity|lia|]. intros p [<-|[<-|[]]]; lia. }
  assert (Hw : widths_ok (mp_nseg hop_mp) (o_nph (mp_ocp hop_mp)) hop_p).
  { split; [reflexivity|]. intros [|[|ph]] Hph; [| |cbn in Hph; lia]; (split; [reflexivity|]; split; [intros x [<-|[<-|[]]]; lra|cbn; field]). }
  destruct (exact_thm hop_mp hop_npath hop_nterm hop_p hopping Hmp hop_ok hop_scales Hw) as (rs & Er & (z & Hz & Hsm) & HE).
  - intros [|[|[|ph]]]; split; reflexivity.
  - exact hop_solves.
  - exact hop_linked.
  - intros [|[|ph]] Hph q Hi; [| |cbn in Hph; lia]; cbn in Hi; destruct Hi as [<-|[<-|[]]]; split; intros; cbn; lia.
  - destruct (HE z Hz Hsm) as (n & En & Hf & _).
    assert (Hin : input_ok hop_mp hop_npath hop_nterm z hop_p) by (constructor; [exact Hmp|exact hop_ok|exact hop_scales|exact Hz|reflexivity]).
    destruct (renum_exists flip hop_mp poh_mp eq_refl eq_refl eq_refl poh_renumbered hop_npath hop_nterm poh_count poh_count z hop_p Hin poh_ok poh_scales) as (z' & p' & Hin' & Hs).
    destruct (nlp_at_ok poh_mp (in_mpo _ _ _ _ _ Hin') _ _ poh_ok poh_scales z' p' (in_z _ _ _ _ _ Hin') (in_p _ _ _ _ _ Hin')) as (rs' & n' & _ & En' & _ & _ & _ & _ & _ & _ & Hb & _).
    exists flip, hop_mp, poh_mp, hop_npath, hop_nterm, poh_count, poh_count, z, hop_p, z', p', n, n'.
    split; [exact Hin|]. split; [exact Hin'|]. split; [reflexivity|]. split; [reflexivity|]. split; [reflexivity|]. split; [exact poh_renumbered|]. split; [exact Hs|]. split; [exact En|]. split; [exact En'|]. split; [exact Hf|].
    intros [F _]. pose proof (proj1 (proj1 Hb F 0%nat ltac:(cbn; lia)) 0%nat 0%nat ltac:(cbn; lia) ltac:(cbn; lia)) as X. cbn [Nat.eqb andb] in X.
    destruct (Hs 0%nat ltac:(cbn; lia)) as [(Sx & _) _]. pose proof (Sx 0%nat 0%nat ltac:(cbn; lia) ltac:(cbn; lia)) as Y.
    destruct (part_widths hop_mp hop_p Hmp Hw 1%nat ltac:(cbn; lia)) as [W1 W2].
    pose proof (proj1 (ExactR.at_first hop_mp rs _ (hopping 1) _ ltac:(cbn; lra) ltac:(cbn; lia) (mo_pos _ Hmp) (rs_len hop_mp rs Er) (rs_good hop_mp _ _ z hop_p Hin rs Er) W1 W2 (Hsm 1%nat ltac:(cbn; lia))) 0%nat ltac:(cbn; lia)) as V.
    change (flip 0) with 1%nat in Y. assert (Q : 0 = 1 / 2).
    { refine (eq_trans (eq_sym X) (eq_trans Y (eq_trans V _))). cbn. field. }
    lra.
Qed.
