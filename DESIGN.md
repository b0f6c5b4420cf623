# Formal model of mpopt: design

Source: `/repo/mpopt/mpopt.py` (the only module of the package). Model: Coq 8.16.1 under
`rocq/theories`, logical prefix `Verif`.

## 1. Approach

* **Shallow, branch-by-branch model.** Each Python method becomes a total Gallina function, with
  exceptions as values (`res A := Ok a | Raise e`). Every definition cites the file and lines it
  models and says where it simplifies.
* **One model, several number types.** The model is written over `N : num` (a record of carrier and
  operations). Theorems are stated at the instance `Rnum` (Coq's reals). The instances `Qnum`
  (rationals) and `Fnum` (IEEE binary64 primitive floats) make the same definitions executable; they
  are used for tests and for refutations that only exist in floating point.
* **CasADi symbols as values.** The symbolic NLP is a function of the decision variables; we model
  the function, i.e. `create_nlp` is modelled as a map from the values of the decision variables and
  segment widths to the values of `x, f, g` together with the bounds.
* **External routines as parameters.** `cos`, `pi`, `leggauss`, `j_roots`, `casadi.integrator` are
  fields of a record `lib`. Where a theorem needs facts about them they are explicit hypotheses
  (e.g. "the roots are increasing, inside (-1,1)"), never axioms. The NLP solver is an arbitrary
  function.
* **Independent specification.** `Spec.v` mentions no model helper: polynomials as coefficient lists
  with evaluation, `is_derive`/`RInt` from Coquelicot, node times in closed form, user-unit
  trajectories, discretised optimal control problem.

## 2. Trusted base

* Coq's kernel (and `coqchk`), including `vm_compute` where it is used in examples.
* Axioms listed by `Print Assumptions` under each theorem in the `Properties_*.v` files: the standard
  library's real-number axioms (`ClassicalDedekindReals.sig_forall_dec`, `sig_not_dec`),
  `functional_extensionality_dep` and `Classical_Prop.classic` (through the Reals library and
  Coquelicot), `ClassicalEpsilon.constructive_indefinite_description` in a few theorems that decide a
  predicate on reals or pick a witness, and the primitive float/int63 operations for the few
  statements at `Fnum`. No axiom is added here.
* The reading of Python/numpy/CasADi semantics written down in the model comments. Real arithmetic is
  an idealisation of binary64: rounding is out of scope except where a theorem is about `Fnum`.
  numpy is the pinned 1.22.0 (ragged `np.array` gives an object array).

### Modelled parts of `mpopt/mpopt.py`

| lines | what | model file |
|-------|------|------------|
| 31-723, 857-882 | class `mpopt`: construction, NLP variables, constraints, objective, guesses, trajectories | `Transcribe.v`, `Objects.v` (aliasing) |
| 710-855 | `create_solver`, `solve`, warm start | `Solve.v` |
| 989-1573 | residual grids, interpolation, residuals, integrated states, second derivatives | `Resid.v` |
| 884-950, 1576-1858, 2210-2232, 3278-3344 | `process_results` without plots, retrieval of data by `post_process`, residual data | `Post.v` |
| 953-956, 1144-1149, 1421-1426, 1858-2208, 2232-2271, 2540-2557, 2719-2739, 3347-3350 | plots: `process_results`, argument `plot` of the residual methods, attribute `plot_residual_evolution`, methods `plot_*` of `post_process`; which curves are drawn on which axes (labels of axes, legends and grids left out) | `Plot.v` |
| 2273-2522 | `mpopt_h_adaptive`: `solve` loop, choice of refinement | `Solve.v`, `Refine.v` |
| 2524-2875 | segment width refinement | `Hadapt.v`, `Refine.v` |
| 2877-3276 | `mpopt_adaptive`: widths as variables, constraints, solving, guess, trajectories | `Adaptive.v` |
| 3378-3703 | class `OCP`: defaults, accessors, validation; assignments to its attributes | `Ocp.v`, `Assign.v` |
| 3706-4131 | class `Collocation` | `Poly.v`, `Mat.v`, `Colloc.v` |
| 4134-4276 | class `CollocationRoots` | `Roots.v` |
| 4279-4309 | function `solve` without plots | `Top.v` |
| 4316-4611 | class `mpopt_ph_adaptive` | `Ph.v` |

`Num.v` and `PyList.v` hold the number record, the exception monad and the list/array operations of
Python and numpy that the code uses. The specification is in `Spec.v` (polynomials, matrices),
`SpecOcp.v` (trajectories, the discretised problem), `SpecSolve.v` (call histories),
`SpecHadapt.v` (partitions, areas), `SpecResid.v` (positions, defects, integrated states),
`SpecLoop.v` (end of the refinement loop), `SpecAdapt.v` (programs whose widths are variables), `SpecPost.v` (retrieved data),
`SpecPh.v` (split meshes), `SpecTop.v` (one call of the module function), `SpecPlot.v` (curves),
`SpecBalance.v`, `SpecExact.v`, `SpecConvex.v`, `SpecDual.v`, `SpecSmooth.v` (problems with known exact costs, convexity, lower bounds, smooth solutions),
`SpecAssign.v` (problems filled in by assignments), `SpecTrack.v` (trajectories of the differential equation near a solution), `SpecCoord.v` (a problem in other coordinates), `SpecExist.v` (continuous functions, finite bounds), `SpecUnique.v` (strictly convex running costs, nodes with a weight), `SpecValue.v` (problems that differ in initial states and bounds, mixtures of them), `SpecSlack.v` (bounds that a point does not touch), `SpecPathBnd.v` (bounds of states and controls written as path constraints), `SpecLinear.v` (linear equations and costs, problems without bounds), `SpecUnit.v` (a problem moved to the unit interval), `SpecReal.v` (cost of the trajectory that the controls lead to), `SpecFlow.v` (right sides and running costs that are Lipschitz in the states and continuous in time), `SpecRenum.v` (phases and links in another order), `SpecTail.v` (the problem of one phase alone), `SpecLaw.v` (combinations of states and their rates), `SpecReverse.v` (symmetric nodes, reversed trajectories and problems), `SpecBeside.v` (problems beside each other, parts of a point), `SpecLocal.v` (functions that agree within the bounds), `SpecSteer.v` (which controls feasible points have), `SpecScore.v` (functions of a terminal cost), `SpecFix.v` (parameters with given values), `SpecStable.v` (Lipschitz in states and controls), `SpecShow.v` (numbers in labels), `SpecSparse.v` (points that agree on some variables), `SpecContract.v` (dissipative state equations), `SpecDamp.v` (equations that do not point away from a point), `SpecEuler.v` (convex functions that the equations do not increase), `SpecForget.v` (strongly dissipative state equations), `SpecSpread.v` (rate at which equations drive states apart), `SpecHist.v` (histories of operations: solver calls allowed, what the user wrote last), `SpecTrans.v` (pairs of problems: relaxed, with combined costs, shifted in time), `SpecMayer.v` (a problem with its running cost turned into a state), `SpecCut.v` (a phase cut in two).
`Ex*.v` hold the worked cases; the remaining `*R.v`, `*Thm.v`, `*Main.v` files hold proofs only.

## 3. Plan per property

| id | modelled | how it is proved |
|----|----------|------------------|
| C01 | `CollocationRoots` (all schemes) | affine map of an increasing list; `cos` monotone on [0,pi]; counterexamples for LG/unknown for all p>=2 |
| C02 | `get_lagrange_polynomials`, `get_interpolation_matrix` | product formula; uniqueness of interpolation (a polynomial of degree < n with n roots is 0) |
| C03 | `get_diff_matrix` | linearity + C02, `is_derive` of polynomials |
| C04 | `get_quadrature_weights` | antiderivative of coefficient lists, `RInt` |
| C05 | both branches of D_MATRIX_METHOD | expression AST and its symbolic derivative vs coefficient lists |
| C06-C08 | composite matrices | induction on the list of orders with block offsets |
| C09 | `Collocation` object with its two dictionaries | invariant: every entry is a function of its key |
| C10-C12 | `get_nlp_variables`, `create_nlp`, `init_trajectories` | list length and `nth` arithmetic |
| C13 | dynamics block | kron/vec identity + C06 + chain rule for the affine time map |
| C14 | the mesh loop | loop invariant |
| C15, C17, C19 | path, terminal, event, control constraints | block decomposition of g |
| C16 | objective | C07; refuted in general, exact for LGR with order >= 2 |
| C18 | whole NLP | corollary of the user-unit characterisation of the feasible set |
| C20 | `init_solution_per_phase` | layout lemma; refuted for controls with nu > 1 |
| C21 | feasible set | counterexample |
| C22-C24 | `solve`, `create_solver`, warm start | dictionary lemmas, induction over call sequences |
| C25 | `mpopt_h_adaptive.solve` | loop invariant over an arbitrary solver oracle |
| C26-C29 | refinement functions | list induction |
| C30, C31, C35 | grids | list induction; counterexample for "fixed" |
| C32-C34 | residuals | C08 + C13 |
| C36-C38, C49 | `process_results`, `post_process` | invariants of the stacking loops; closed form of the repeated insertion of mid points |
| C39, C40 | `mpopt_adaptive` | as C13 with widths as variables |
| C41 | `mpopt_ph_adaptive` | evaluation of the method body; loop invariant for the part that is not reached; list induction for the split |
| C42 | `OCP` | decision procedure reflected into a predicate |
| C43 | `mpopt.__init__` | case analysis; store model for aliasing |
| C44 | `solve` with default dictionaries | store of dictionaries shared between calls |
| C45 | merge/split | run decomposition |
| C46 | second derivatives | C02, C03 on composite matrices |
| C50 | residual methods of `mpopt_adaptive` | congruence: the methods depend on a trajectory only through the entries it shares with its fixed-width partner; C32, C33, C46 |
| C51 | `mpopt_h_adaptive.solve` | induction over the remaining iterations with the rounds done so far as history; each test characterised separately |
| C52 | module function `solve` | inversion of the run; C10-C19, C22-C24 and C36 put together |
| C53, C54 | plots | drawing monad: list of curves; C36-C38 for the data; induction over columns and phases |
| C55 | slopes that rank the nodes | composite differentiation matrix applied to the controls; change of variable to time |
| C56 | refinements with `plot_residual_evolution` | drawing monad; induction over the refinements of a run |
| C57 | error recorded by the refinement loop | both rules report the largest entry of the residuals they see; last round of the loop |
| C58 | running costs that are combinations of the state equations | the cost polynomial is the combination of the derivatives of the state polynomials up to the first node; telescoping over the segments |
| C59 | exact polynomial solutions | uniqueness of the interpolating polynomial on every segment; exactness of the LGR weights |
| C60 | convex problems | constraint rows are affine or convex in the point when the times are fixed; positive quadrature weights |
| C61 | lower bounds on the cost | discrete comparison: V along the state polynomials of a segment, integrated exactly by the weights |
| C62 | smooth solutions | Taylor polynomial of every segment; bounds of differentiation, interpolation and quadrature as linear functionals of nodal values |
| C63 | problems filled in by assignments | induction over the assignments, one cell of one attribute at a time |
| C64 | relaxed problems | the rows of a program, phase by phase, as conditions on trajectories; nonnegative quadrature weights |
| C65 | objective linear in the costs | the objective as a weighted sum over nodes |
| C66 | problems shifted in time | the same for trajectories that differ only in the times; every shifted trajectory can be packed |
| C67 | running cost turned into a state | collocation of the extra state against the quadrature rule, segment by segment; for the converse, integrating the interpolant of the running cost; refuted in full by a control that changes over one segment of order 1 |
| C68 | a phase cut in two | node and segment indices of the doubled mesh; every block of rows of the joined point against those of both phases; equality of the programs refuted by a control that jumps after the cut |
| C69 | feasible points follow the differential equation between the nodes | growth of the squared distance on an interval (mean value theorem with an integrating factor), chained over the segments; error of interpolation of the right side at the nodes gives the defects; refuted without smoothness by controls alternating at the nodes of any mesh |
| C70 | the program does not depend on the (affine) coordinates | rows of the two programs compared trajectory by trajectory: interpolation commutes with affine maps; points carried over by packing the transformed trajectory; refuted for a logarithm, where the first segment is collocated at both nodes |
| C71 | limits of feasible points, existence of solutions | every row of the program converges along converging points; bounded coordinates have converging subsequences (Bolzano-Weierstrass, one coordinate after the other); a minimising sequence; refuted by x' = u with final costs exp(x) and one that jumps |
| C72 | solutions of convex problems | half way between two solutions the objective would be smaller if one term of its sum were; weights are positive (C60); a state is given by its start and its rates at the other nodes of each segment, so the cart of C60 has one solution; refuted for LGR, where the first weight is 0 from order 2 on, by x' = 0 with cost x^2 + u^2 |
| C73 | convex optimal cost | the arguments of C60 with other bounds for the two points; a value between lies within the bounds between, also when some are infinite; x' = 0 with cost s x(1)^2 has optimal cost s x0^2 on every mesh, which refutes it for s = -1 |
| C74 | untouched bounds | a small step from the solution towards a point of the new program keeps all old bounds: finitely many quantities, each with a step of its own; by C73 the cost along the step is at most the chord; refuted for x' = u with cost v^2 - v^4 / 2 |
| C75 | bounds as path constraints | every node belongs to some segment (`owned_exists`), so the rows hold at every node; the two gaps are refuted: an initial state outside of its bounds, and controls between nodes where midpoints are bounded |
| C76 | linear problems | the defect of a segment of order q is a polynomial of degree at most q with q known zeros, q + 1 on the first segment; so one-segment solutions are polynomials that solve the equation, and C59 carries them to every finer mesh; refuted for later segments and for x' = u^2 |
| C77 | start and end time as parameters on the unit interval | both programs are described by C20-like conditions on trajectories; values of the user functions, bounds and costs agree term by term for corresponding trajectories; refuted for several phases, where links make the moved problem infeasible |
| C78 | objective and true cost | per segment: the weights integrate the interpolant of the running cost along the polynomials (C62's constants), which a Lipschitz condition compares with the running cost along the trajectory; the distance comes from C69; refuted for several segments of order 1 with the problem of C62 |
| C79 | existence of trajectories | Picard iteration on each segment (distances measured with exp(-2 K t), controls and time held constant outside the segment), glued at the ends of segments; two trajectories are compared with the growth estimate of C69, which also gives uniqueness; then C69 and C78 without their assumption that a trajectory exists; refuted without a Lipschitz constant by atan(x) passing pi/2 |
| C80 | phases in another order | both programs in terms of the user's trajectories, phase by phase; the sum over phases is invariant under permutations, links are compared as sets; refuted for the first phase by exchanging the phases of a two-phase problem |
| C81 | principle of optimality for phases | a better point of the phase alone, put in the place of the phase, is a better point of the whole: conditions and cost of a phase depend on its own data only, links on values at its ends; refuted for free first controls by a two-phase problem whose feasible points all have the same objective |
| C82 | linear laws of the state equations | the combination's polynomial has the right rate at all nodes but the first of a segment, hence everywhere, and segments are joined by induction; for inequalities the growth over a segment is a quadrature of rates with weights that are not negative and leave out the first node; refuted for sums of squares by a rotation with segments of order 1 |
| C83 | uniqueness and symmetry of nodes, time reversal | two monic polynomials orthogonal to all lower degrees differ by one that is orthogonal to itself; negation maps the roots for (a, b) to those for (b, a); LGR nodes that were symmetric would be orthogonal to themselves; interpolants of reversed values are mirrored interpolants; refuted on two segments, where only the segment that ends at the common node has to meet the state equations there |
| C84 | two problems in one | every condition of the joint problem is that of one of its parts, found by splitting states, controls and parameters at the numbers of the first problem; costs add up node by node; a better part could be glued to the other part; refuted for free times, where one problem wants an early end and the other, with more weight, a late one |
| C85 | functions outside the bounds | every node of a feasible point is within the bounds or is the given initial state, and meets the path constraints; so all values that the program takes agree; refuted without the initial state |
| C86 | controls determine states | the difference of two state polynomials of a segment starts at 0 and its derivative at the nodes is at most L times the difference; the constant bounds the difference by its derivative; induction over the segments; refuted on coarse meshes |
| C87 | controls of feasible points | the derivative of the state polynomial of the first segment has a degree below the order and equals the state equations at all nodes; conversely states are filled in segment by segment by integration; free choice refuted |
| C88 | terminal cost on another scale | all quadrature terms are 0, one Mayer term is left in the sum over the phases; constraints do not contain costs; refuted with a running cost |
| C89 | given parameters put in | the parameter argument of all functions is the kept part followed by the given values; bounds split into the two parts; points carried over by packing; refuted for values merely within the bounds |
| C90 | stability of the discretisation | the largest difference on a segment is bounded by the one at its start plus a multiple of its length (polynomial with small derivative at the nodes); discrete Gronwall over the segments; refuted without the constant of the scheme |
| C91 | constraint rows: values, sparsity | values of the dynamics and mid-point blocks in terms of segment polynomials; two points with equal data on a segment have the same polynomial; refuted without equal times |
| C92 | dissipative problems contract on Radau meshes | positive Radau weights of exactness 2q-2 on the derivative of the squared distance; the missing top degree has the right sign; induction over segments; refuted for CGL of degree two and without dissipation |
| C93 | damped states on Radau meshes | as C92 with one polynomial and a constant; bounds of the phase restrict the hypothesis; refuted as an equality and for CGL of degree two |
| C94 | convex laws on segments of order 1 | the step is implicit Euler; the supporting plane at the end of the segment; refuted for order 2 |
| C95 | strongly dissipative problems forget their start | as C92, keeping the term of the last node of each segment, whose weight is positive; induction over segments; refuted with the exponential rate |
| C96 | sharp growth of distances on segments of order one | the residual of such a segment is one implicit Euler step; the square of d0 - (1 - L l) d1 is not negative; refuted for long segments |
| C47, C48 | the whole refinement loop | loop invariant: current widths partition, every refinement step total |

Not modelled: the interior of matplotlib, log output, wall-clock printing, the interior of IPOPT/SNOPT,
`casadi.integrator`, floating-point rounding (except `Fnum` statements), a single number given as `nlp_sw_params`
(CasADi would use it for all segments; `as_nums` in `Solve.v` raises).
