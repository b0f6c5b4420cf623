(** Properties of classes CollocationRoots and Collocation (C01-C09). *)
From Coq Require Import Reals Lia Lra.
From Coquelicot Require Import Coquelicot.
From Coq Require Import String List.
From Verif Require Import Num PyList Mat Poly Roots Colloc Spec NumR JacobiR CompR CacheName CacheNew CollocThm.
Import ListNotations.
Open Scope R_scope.

(** a configuration that meets the hypotheses used below *)
Definition ex_cf (m : dmethod) (s : string) : ccfg Rnum := Ccfg (N := Rnum) ideal_lib m s (-1) 1.
Lemma ex_cf_ok m s : In s ["LGR"; "LGL"; "CGL"]%string -> cfg_ok (ex_cf m s).
Proof. intros H. constructor; cbn; [exact ideal_lib_ok|exact H|lra]. Qed.

(** * C01 *)
Theorem C01_nodes : forall (cf : ccfg Rnum) (p : nat), cfg_ok cf -> (1 <= p)%nat ->
  exists r, c_roots cf p = Ok r /\ good_nodes (cf_tau0 cf) (cf_tau1 cf) p r.
Proof. exact c_roots_good. Qed.
Print Assumptions C01_nodes.
Example C01_nodes_case : cfg_ok (ex_cf Symbolic "LGL") /\ (1 <= 7)%nat.
Proof. split; [apply ex_cf_ok; cbn; auto|lia]. Qed.

(** the other scheme names give one node too few ... *)
Theorem C01_other_schemes_nodes : forall (cf : ccfg Rnum) (p : nat) (r : list R),
  ~ In (cf_scheme cf) ["LGR"; "LGL"; "CGL"]%string -> (2 <= p)%nat ->
  (forall n, length (l_leggauss (cf_lib cf) n) = n) ->
  c_roots cf p = Ok r -> length r = p.
Proof. exact bad_scheme_roots. Qed.
Print Assumptions C01_other_schemes_nodes.
(** ... and the composite matrices cannot be assembled *)
Theorem C01_other_schemes_raise : forall (cf : ccfg Rnum) (orders : list nat) (ord p : nat),
  ~ In (cf_scheme cf) ["LGR"; "LGL"; "CGL"]%string -> (2 <= p)%nat -> In p orders ->
  (forall n, length (l_leggauss (cf_lib cf) n) = n) ->
  exists e, comp_diff cf orders ord = Raise e.
Proof. exact bad_scheme_diff. Qed.
Print Assumptions C01_other_schemes_raise.
Example C01_other_schemes_case :
  ~ In (cf_scheme (ex_cf Numerical "LG")) ["LGR"; "LGL"; "CGL"]%string /\ (2 <= 4)%nat /\ In 4%nat [1; 4; 2]%nat /\
  (forall n, length (l_leggauss (cf_lib (ex_cf Numerical "LG")) n) = n) /\
  exists r, c_roots (ex_cf Numerical "LG") 4 = Ok r.
Proof.
  repeat split; try lia; [|cbn; auto|apply ideal_leggauss|eexists; reflexivity].
  cbn. intros [H|[H|[H|[]]]]; discriminate.
Qed.

(** * C02 *)
Theorem C02_basis : forall (m : dmethod) (roots : list R) (i j : nat) (d : poly Rnum), NoDup roots ->
  (i < length roots)%nat -> (j < length roots)%nat ->
  poly_at m (nth j (get_lagrange_polynomials (N := Rnum) m roots) d) (nth i roots 0)
  = Ok (if Nat.eqb i j then 1 else 0).
Proof. exact basis_kronecker. Qed.
Print Assumptions C02_basis.
Theorem C02_interpolation_exact : forall (cf : ccfg Rnum) (roots pts : list R), NoDup roots ->
  exists C, interp_matrix_of cf (get_lagrange_polynomials (cf_meth cf) roots) pts = Ok C /\
    nr C = length pts /\ nc C = length roots /\
    forall c i, (length c <= length roots)%nat -> (i < length pts)%nat ->
      row_dot C i (fun j => peval c (nth j roots 0)) = peval c (nth i pts 0).
Proof. exact interp_exact. Qed.
Print Assumptions C02_interpolation_exact.
Theorem C02_rows_sum_to_one : forall (cf : ccfg Rnum) (roots pts : list R) (C : mat Rnum) (i : nat),
  NoDup roots -> roots <> [] ->
  interp_matrix_of cf (get_lagrange_polynomials (cf_meth cf) roots) pts = Ok C -> (i < length pts)%nat ->
  row_dot C i (fun _ => 1) = 1.
Proof. exact row_sum_one. Qed.
Print Assumptions C02_rows_sum_to_one.
(** distinct nodes, in any order *)
Example C02_case : NoDup [1; -1; 1 / 3].
Proof. repeat constructor; cbn; lra. Qed.

(** * C03 *)
Theorem C03_first_derivative : forall (cf : ccfg Rnum) (roots pts : list R), NoDup roots ->
  exists D, diff_matrix_of cf (get_lagrange_polynomials (cf_meth cf) roots) pts 1 = Ok D /\
    nr D = length pts /\ nc D = length roots /\
    forall c i, (length c <= length roots)%nat -> (i < length pts)%nat ->
      is_derive (peval c) (nth i pts 0) (row_dot D i (fun j => peval c (nth j roots 0))).
Proof. exact diff1_exact. Qed.
Print Assumptions C03_first_derivative.
Theorem C03_second_derivative : forall (cf : ccfg Rnum) (roots pts : list R), NoDup roots ->
  exists D, diff_matrix_of cf (get_lagrange_polynomials (cf_meth cf) roots) pts 2 = Ok D /\
    nr D = length pts /\ nc D = length roots /\
    forall c i, (length c <= length roots)%nat -> (i < length pts)%nat ->
      is_derive_n (peval c) 2 (nth i pts 0) (row_dot D i (fun j => peval c (nth j roots 0))).
Proof. exact diff2_exact. Qed.
Print Assumptions C03_second_derivative.
Theorem C03_other_orders_raise : forall (N : num) (cf : ccfg N) (roots pts : list N) (order : nat),
  roots <> [] -> pts <> [] -> order <> 1%nat -> order <> 2%nat ->
  diff_matrix_of cf (get_lagrange_polynomials (cf_meth cf) roots) pts order = Raise UnboundLocalError.
Proof. exact diff_other_raises. Qed.
Print Assumptions C03_other_orders_raise.
Example C03_case : NoDup [0; 2; 1; -5] /\ [0; 2; 1; -5] <> [] /\ 0%nat <> 1%nat /\ 0%nat <> 2%nat.
Proof. repeat split; try discriminate. repeat constructor; cbn; lra. Qed.

(** * C04 *)
Theorem C04_quadrature_exact : forall (cf : ccfg Rnum) (roots : list R) (a b : R),
  NoDup roots -> integ_exact (l_integ (cf_lib cf)) ->
  exists w, quad_weights_of cf (get_lagrange_polynomials (cf_meth cf) roots) a b = Ok w /\
    length w = length roots /\
    forall c, (length c <= length roots)%nat ->
      Rsum (length roots) (fun j => nth j w 0 * peval c (nth j roots 0)) = RInt (peval c) a b.
Proof. exact weights_exact_thm. Qed.
Print Assumptions C04_quadrature_exact.
(** on the package's own nodes the rules are exact further: Radau up to degree 2p-2, Lobatto up to 2p-1 *)
Theorem C04_LGR_gauss : forall (cf : ccfg Rnum) (p : nat), cfg_ok cf -> cf_scheme cf = "LGR"%string -> (2 <= p)%nat ->
  exists r w, c_roots cf p = Ok r /\ quad_weights cf p (cf_tau0 cf) (cf_tau1 cf) = Ok w /\
    nth 0 w 0 = 0 /\
    forall c, (length c <= 2 * p - 1)%nat ->
      Rsum (S p) (fun j => nth j w 0 * peval c (nth j r 0)) = RInt (peval c) (cf_tau0 cf) (cf_tau1 cf).
Proof. exact lgr_weights. Qed.
Print Assumptions C04_LGR_gauss.
Theorem C04_LGL_gauss : forall (cf : ccfg Rnum) (p : nat), cfg_ok cf -> cf_scheme cf = "LGL"%string -> (2 <= p)%nat ->
  exists r w, c_roots cf p = Ok r /\ quad_weights cf p (cf_tau0 cf) (cf_tau1 cf) = Ok w /\
    forall c, (length c <= 2 * p)%nat ->
      Rsum (S p) (fun j => nth j w 0 * peval c (nth j r 0)) = RInt (peval c) (cf_tau0 cf) (cf_tau1 cf).
Proof. exact lgl_weights. Qed.
Print Assumptions C04_LGL_gauss.
Example C04_case : NoDup [0; 1 / 2; 1] /\ integ_exact (l_integ (cf_lib (ex_cf Symbolic "LGR"))) /\
  cfg_ok (ex_cf Symbolic "LGR") /\ cfg_ok (ex_cf Numerical "LGL").
Proof.
  split; [repeat constructor; cbn; lra|]. split; [exact (lo_integ _ ideal_lib_ok)|].
  split; apply ex_cf_ok; cbn; auto.
Qed.

(** * C05 *)
Theorem C05_differentiation : forall (cf : ccfg Rnum) (roots pts : list R) (k : nat), NoDup roots -> (k = 1 \/ k = 2)%nat ->
  exists A B, diff_matrix_of (with_meth cf Symbolic) (get_lagrange_polynomials Symbolic roots) pts k = Ok A /\
    diff_matrix_of (with_meth cf Numerical) (get_lagrange_polynomials Numerical roots) pts k = Ok B /\ mat_eq A B.
Proof. exact meth_diff. Qed.
Print Assumptions C05_differentiation.
Theorem C05_interpolation : forall (cf : ccfg Rnum) (roots pts : list R), NoDup roots ->
  exists A B, interp_matrix_of (with_meth cf Symbolic) (get_lagrange_polynomials Symbolic roots) pts = Ok A /\
    interp_matrix_of (with_meth cf Numerical) (get_lagrange_polynomials Numerical roots) pts = Ok B /\ mat_eq A B.
Proof. exact meth_interp. Qed.
Print Assumptions C05_interpolation.
Theorem C05_quadrature : forall (cf : ccfg Rnum) (roots : list R) (a b : R), NoDup roots ->
  integ_exact (l_integ (cf_lib cf)) ->
  exists w, quad_weights_of (with_meth cf Symbolic) (get_lagrange_polynomials Symbolic roots) a b = Ok w /\
    quad_weights_of (with_meth cf Numerical) (get_lagrange_polynomials Numerical roots) a b = Ok w.
Proof. exact meth_quad. Qed.
Print Assumptions C05_quadrature.
Example C05_case : NoDup [-1; 0; 1] /\ integ_exact (l_integ (cf_lib (ex_cf Symbolic "CGL"))).
Proof. split; [repeat constructor; cbn; lra|exact (lo_integ _ ideal_lib_ok)]. Qed.

(** * C06 *)
Theorem C06_composite_differentiation : forall (cf : ccfg Rnum) (orders : list nat), cfg_ok cf ->
  (forall p, In p orders -> (1 <= p)%nat) ->
  exists rs D, mapM (c_roots cf) orders = Ok rs /\ comp_diff cf orders 1 = Ok D /\
    nr D = total_nodes orders /\ nc D = total_nodes orders /\
    forall ys k p r i c, nth_error orders k = Some p -> nth_error rs k = Some r ->
      (i <= p)%nat -> (k = 0 \/ 1 <= i)%nat -> seg_interp orders k r ys c ->
      is_derive (peval c) (nth i r 0) (row_dot D (offset orders k + i) ys).
Proof. exact comp_diff1_thm. Qed.
Print Assumptions C06_composite_differentiation.
Theorem C06_composite_second_derivative : forall (cf : ccfg Rnum) (orders : list nat), cfg_ok cf ->
  (forall p, In p orders -> (1 <= p)%nat) ->
  exists rs D, mapM (c_roots cf) orders = Ok rs /\ comp_diff cf orders 2 = Ok D /\
    nr D = total_nodes orders /\ nc D = total_nodes orders /\
    forall ys k p r i c, nth_error orders k = Some p -> nth_error rs k = Some r ->
      (i <= p)%nat -> (k = 0 \/ 1 <= i)%nat -> seg_interp orders k r ys c ->
      is_derive_n (peval c) 2 (nth i r 0) (row_dot D (offset orders k + i) ys).
Proof. exact comp_diff2_thm. Qed.
Print Assumptions C06_composite_second_derivative.
(** every row has an owner: the hypotheses on k and i cover all rows *)
Theorem C06_every_row_owned : forall orders row, orders <> [] -> (row < total_nodes orders)%nat ->
  (forall p, In p orders -> (1 <= p)%nat) ->
  exists k p i, nth_error orders k = Some p /\ (i <= p)%nat /\ (k = 0 \/ 1 <= i)%nat /\ row = (offset orders k + i)%nat.
Proof. exact row_owner. Qed.
Print Assumptions C06_every_row_owned.
(** any nodal data has segment interpolants *)
Theorem C06_interpolants_exist : forall (cf : ccfg Rnum) (orders : list nat), cfg_ok cf ->
  (forall p, In p orders -> (1 <= p)%nat) ->
  exists rs, mapM (c_roots cf) orders = Ok rs /\
  forall ys k r, nth_error rs k = Some r -> exists c, seg_interp orders k r ys c.
Proof. exact seg_interp_exists. Qed.
Print Assumptions C06_interpolants_exist.
Example C06_case : cfg_ok (ex_cf Symbolic "CGL") /\ (forall p, In p [3; 1; 4]%nat -> (1 <= p)%nat).
Proof. split; [apply ex_cf_ok; cbn; auto|intros p [<-|[<-|[<-|[]]]]; lia]. Qed.

(** * C07 *)
(** what the composite weights compute, for every supported scheme: the start node of every
    segment but the first has no weight of its own *)
Theorem C07_composite_quadrature_formula : forall (cf : ccfg Rnum) (orders : list nat), cfg_ok cf -> orders <> [] ->
  (forall p, In p orders -> (1 <= p)%nat) -> forall a b : R,
  exists rs W ws, mapM (c_roots cf) orders = Ok rs /\ comp_quad cf orders a b = Ok W /\
    mapM (fun p => quad_weights cf p a b) orders = Ok ws /\
    length W = total_nodes orders /\
    forall ys cs, (forall k r, nth_error rs k = Some r -> seg_interp orders k r ys (cs k)) ->
      Rsum (total_nodes orders) (fun j => nth j W 0 * ys j) =
      Rsum (length orders) (fun k => RInt (peval (cs k)) a b)
      - Rsum (length orders - 1) (fun k => nth 0 (nth (S k) ws []) 0 * ys (offset orders (S k))).
Proof. exact comp_quad_thm. Qed.
Print Assumptions C07_composite_quadrature_formula.
(** the claimed property holds for LGR when all later segments have order at least 2 (any order
    for the first, hence for a single segment) *)
Theorem C07_composite_quadrature_LGR_partial : forall (cf : ccfg Rnum) (orders : list nat),
  cfg_ok cf -> cf_scheme cf = "LGR"%string -> orders <> [] ->
  (1 <= hd 0 orders)%nat -> (forall p, In p (tl orders) -> (2 <= p)%nat) ->
  exists rs W, mapM (c_roots cf) orders = Ok rs /\ comp_quad cf orders (cf_tau0 cf) (cf_tau1 cf) = Ok W /\
    length W = total_nodes orders /\
    forall ys cs, (forall k r, nth_error rs k = Some r -> seg_interp orders k r ys (cs k)) ->
      Rsum (total_nodes orders) (fun j => nth j W 0 * ys j) =
      Rsum (length orders) (fun k => RInt (peval (cs k)) (cf_tau0 cf) (cf_tau1 cf)).
Proof. exact comp_quad_lgr. Qed.
Print Assumptions C07_composite_quadrature_LGR_partial.
Example C07_case : cfg_ok (ex_cf Numerical "LGR") /\ [1; 3; 2]%nat <> [] /\ (1 <= hd 0 [1; 3; 2])%nat /\
  (forall p, In p (tl [1; 3; 2]%nat) -> (2 <= p)%nat).
Proof.
  split; [apply ex_cf_ok; cbn; auto|]. split; [discriminate|]. split; [cbn; lia|].
  cbn. intros p [<-|[<-|[]]]; lia.
Qed.
(** the property is false of the code: two segments of order 1, constant integrand 1 *)
Theorem C07_composite_quadrature_refuted : exists (cf : ccfg Rnum) (orders : list nat) rs W ys cs,
  cfg_ok cf /\ orders <> [] /\ (forall p, In p orders -> (1 <= p)%nat) /\
  mapM (c_roots cf) orders = Ok rs /\ comp_quad cf orders (cf_tau0 cf) (cf_tau1 cf) = Ok W /\
  (forall k r, nth_error rs k = Some r -> seg_interp orders k r ys (cs k)) /\
  Rsum (total_nodes orders) (fun j => nth j W 0 * ys j) <>
  Rsum (length orders) (fun k => RInt (peval (cs k)) (cf_tau0 cf) (cf_tau1 cf)).
Proof.
  pose proof (ex_cf_ok Numerical "LGR" (or_introl eq_refl)) as Hcf.
  destruct (comp_quad_wrong _ Hcf (or_introl eq_refl)) as (rs & W & H1 & H2 & H3 & H4 & H5).
  exists (ex_cf Numerical "LGR"), [1; 1]%nat, rs, W, (fun _ => 1), (fun _ => [1]).
  split; [exact Hcf|]. split; [discriminate|]. split; [intros p [<-|[<-|[]]]; lia|].
  split; [exact H1|]. split; [exact H2|]. split; [exact H3|].
  intros H. change (Rsum 3 (fun j => nth j W 0 * 1) =
    Rsum 2 (fun k => RInt (peval [1]) (cf_tau0 (ex_cf Numerical "LGR")) (cf_tau1 (ex_cf Numerical "LGR")))) in H.
  nred. rewrite H in H4. rewrite H5 in H4. cbn in H4. lra.
Qed.
Print Assumptions C07_composite_quadrature_refuted.
(** Lobatto points: wrong on every mesh with two or more segments *)
Theorem C07_LGL_refuted : forall (cf : ccfg Rnum) (orders : list nat), cfg_ok cf ->
  cf_scheme cf = "LGL"%string -> (2 <= length orders)%nat -> (forall p, In p orders -> (1 <= p)%nat) ->
  exists rs W, mapM (c_roots cf) orders = Ok rs /\ comp_quad cf orders (cf_tau0 cf) (cf_tau1 cf) = Ok W /\
  let ys := fun _ : nat => 1 in let cs := fun _ : nat => [1] in
  (forall k r, nth_error rs k = Some r -> seg_interp orders k r ys (cs k)) /\
  Rsum (total_nodes orders) (fun j => nth j W 0 * ys j) <
  Rsum (length orders) (fun k => RInt (peval (cs k)) (cf_tau0 cf) (cf_tau1 cf)).
Proof. exact comp_quad_lgl_wrong. Qed.
Print Assumptions C07_LGL_refuted.
Example C07_LGL_case : cfg_ok (ex_cf Numerical "LGL") /\ (2 <= length [3; 3]%nat)%nat /\
  (forall p, In p [3; 3]%nat -> (1 <= p)%nat).
Proof. split; [apply ex_cf_ok; cbn; auto|]. split; [cbn; lia|intros p [<-|[<-|[]]]; lia]. Qed.

(** * C08 *)
Theorem C08_composite_interpolation : forall (cf : ccfg Rnum) (orders : list nat) (taus : list (list R)),
  cfg_ok cf -> (forall p, In p orders -> (1 <= p)%nat) -> length taus = length orders ->
  exists rs C D1 D2, mapM (c_roots cf) orders = Ok rs /\ comp_interp cf taus orders = Ok C /\
    comp_interpD cf taus orders 1 = Ok D1 /\ comp_interpD cf taus orders 2 = Ok D2 /\
    (nr C = offset (map (@length R) taus) (length taus) /\ nc C = total_nodes orders) /\
    (nr D1 = offset (map (@length R) taus) (length taus) /\ nc D1 = total_nodes orders) /\
    (nr D2 = offset (map (@length R) taus) (length taus) /\ nc D2 = total_nodes orders) /\
    forall ys k p r t i c, nth_error orders k = Some p -> nth_error rs k = Some r -> nth_error taus k = Some t ->
      (i < length t)%nat -> seg_interp orders k r ys c ->
      let row := (offset (map (@length R) taus) k + i)%nat in
      row_dot C row ys = peval c (nth i t 0) /\
      is_derive (peval c) (nth i t 0) (row_dot D1 row ys) /\
      is_derive_n (peval c) 2 (nth i t 0) (row_dot D2 row ys).
Proof. exact comp_interp_thm. Qed.
Print Assumptions C08_composite_interpolation.
(** one of the segments has no points *)
Example C08_case : cfg_ok (ex_cf Symbolic "LGL") /\ (forall p, In p [2; 1; 5]%nat -> (1 <= p)%nat) /\
  length [[0; 1 / 2]; []; [1]] = length [2; 1; 5]%nat.
Proof. split; [apply ex_cf_ok; cbn; auto|]. split; [intros p [<-|[<-|[<-|[]]]]; lia|reflexivity]. Qed.

(** * C09 *)
(** after any calls that do not register custom roots under the integer keys asked for, the
    object answers as a newly built one *)
Theorem C09_history_independent : forall (N : num) (cf : ccfg N) (os os' : list nat) (h : list (ccall N)) (ps : list nat),
  (forall c p, In c h -> In p ps -> ~ overrides p c) ->
  let o := run cf os h in let new := fst (st_new cf os') in
  (forall p t d, In p ps -> snd (st_diff_matrix cf o (KDeg p) t d) = snd (st_diff_matrix cf new (KDeg p) t d)) /\
  (forall p a b, In p ps -> snd (st_quad_weights cf o (KDeg p) a b) = snd (st_quad_weights cf new (KDeg p) a b)) /\
  (forall p t, In p ps -> snd (st_interp_matrix cf o t (KDeg p)) = snd (st_interp_matrix cf new t (KDeg p))) /\
  (forall qs d M, incl qs ps -> (snd (st_comp_diff cf o qs d) = Ok M <-> snd (st_comp_diff cf new qs d) = Ok M)) /\
  (forall qs a b M, incl qs ps -> (snd (st_comp_quad cf o qs a b) = Ok M <-> snd (st_comp_quad cf new qs a b) = Ok M)) /\
  (forall qs t, incl qs ps -> snd (st_comp_interp cf o t qs) = snd (st_comp_interp cf new t qs)) /\
  (forall qs t d, incl qs ps -> snd (st_comp_interpD cf o t qs d) = snd (st_comp_interpD cf new t qs d)).
Proof. exact cache_fresh. Qed.
Print Assumptions C09_history_independent.
(** the object's answers are those of the history-free functions the other theorems are about *)
Theorem C09_object_refines_functions : forall (N : num) (cf : ccfg N) (os : list nat) (h : list (ccall N)) (ps : list nat),
  (forall c p, In c h -> In p ps -> ~ overrides p c) ->
  let o := run cf os h in
  (forall p t d, In p ps -> snd (st_diff_matrix cf o (KDeg p) t d) = diff_matrix cf p t d) /\
  (forall p a b, In p ps -> snd (st_quad_weights cf o (KDeg p) a b) = quad_weights cf p a b) /\
  (forall p t, In p ps -> snd (st_interp_matrix cf o t (KDeg p)) = interp_matrix cf t p) /\
  (forall qs d M, incl qs ps -> (snd (st_comp_diff cf o qs d) = Ok M <-> comp_diff cf qs d = Ok M)) /\
  (forall qs a b M, incl qs ps -> (snd (st_comp_quad cf o qs a b) = Ok M <-> comp_quad cf qs a b = Ok M)) /\
  (forall qs t, incl qs ps -> snd (st_comp_interp cf o t qs) = comp_interp cf t qs) /\
  (forall qs t d, incl qs ps -> snd (st_comp_interpD cf o t qs d) = comp_interpD cf t qs d).
Proof. exact cache_thm. Qed.
Print Assumptions C09_object_refines_functions.
Example C09_case : forall c p, In c [CDiff (N := Rnum) (KDeg 3) None 1; CCustom [(KStr "fine", [0; 1])]; CInit [3; 4]%nat] ->
  In p [3; 4; 5]%nat -> ~ overrides p c.
Proof. intros c p [<-|[<-|[<-|[]]]] _; cbn; intuition discriminate. Qed.
(** a new object has prepared exactly the orders it was given, each once; it cannot be built if the roots of one of them cannot be found *)
Theorem C09_new_object : forall (N : num) (cf : ccfg N) (os : list nat), let o := fst (st_new cf os) in let answer := snd (st_new cf os) in
  co_orders o = os /\ (answer = Ok tt <-> forall p, In p os -> exists r, c_roots cf p = Ok r) /\
  (answer = Ok tt ->
     (exists ps, NoDup ps /\ (forall p, In p ps <-> In p os) /\ map fst (co_roots o) = map KDeg ps /\ map fst (co_polys o) = map KDeg ps) /\
     (forall p, In p os -> exists r, c_roots cf p = Ok r /\ dget key_eqb (co_roots o) (KDeg p) = Some r /\
        dget key_eqb (co_polys o) (KDeg p) = Some (get_lagrange_polynomials (cf_meth cf) r))).
Proof. exact new_thm. Qed.
Print Assumptions C09_new_object.
Example C09_new_case : snd (st_new (ex_cf Numerical "LGR") [3; 5; 3]%nat) = Ok tt.
Proof.
  destruct (new_thm Rnum (ex_cf Numerical "LGR") [3; 5; 3]%nat) as (_ & H & _). apply H. intros p Hp.
  destruct (c_roots_good (ex_cf Numerical "LGR") p) as (r & E & _); [apply ex_cf_ok; cbn; auto|destruct Hp as [<-|[<-|[<-|[]]]]; lia|exists r; exact E].
Qed.
(** custom roots under a key are used from then on, until that key is set again *)
Theorem C09_custom_roots : forall (N : num) (cf : ccfg N) (os : list nat) (h1 h2 : list (ccall N)) d (k : key) (r : list N),
  (forall c, In c h2 -> ~ resets k c) ->
  let o := run cf os (h1 ++ CCustom (d ++ [(k, r)]) :: h2) in
  let basis := get_lagrange_polynomials (cf_meth cf) r in
  (forall t od, snd (st_diff_matrix cf o k t od) =
     diff_matrix_of cf basis (match t with None => r | Some t => t end) od) /\
  (forall a b, snd (st_quad_weights cf o k a b) = quad_weights_of cf basis a b) /\
  (forall t, snd (st_interp_matrix cf o t k) = interp_matrix_of cf basis t).
Proof. exact custom_thm. Qed.
Print Assumptions C09_custom_roots.
(** a name under which no roots were registered is refused, and the object is left as it is *)
Theorem C09_unknown_name : forall (N : num) (cf : ccfg N) (s : string) (os : list nat) (h : list (ccall N)),
  (forall c, In c h -> ~ resets (KStr s) c) ->
  let o := run cf os h in
  (forall t d, st_diff_matrix cf o (KStr s) t d = (o, Raise TypeError)) /\
  (forall a b, st_quad_weights cf o (KStr s) a b = (o, Raise TypeError)) /\
  (forall t, st_interp_matrix cf o t (KStr s) = (o, Raise TypeError)).
Proof. exact unknown_name. Qed.
Print Assumptions C09_unknown_name.
Example C09_custom_case : forall c, In c [CInit (N := Rnum) [3]%nat; CQuad (KStr "fine") 0 1; CCustom [(KStr "g", [0])]] ->
  ~ resets (KStr "fine") c.
Proof. intros c [<-|[<-|[<-|[]]]]; cbn; intuition discriminate. Qed.
