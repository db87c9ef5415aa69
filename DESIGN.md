# Formal model of OptimPack: design

Target: `emmt/OptimPack`, sources in `/repo/src` (read as text, never built).  Tool: Rocq/Coq 8.16.1
(`coqc`), with the standard library and Flocq 4.1 (IEEE 754 arithmetic).

## 1. How the code is modelled

* **Numbers.**  C `double`/`float` expressions are translated operation by operation into functions
  over a plain record `Num` of operations (`zero one add sub mul div opp abs sqrt ltb leb eqb ...`,
  file `Num.v`).  The record carries *no laws*.  Three kinds of theorems are stated:
  - control-flow theorems hold for **every** `Num` (any arithmetic at all, so also IEEE with NaN,
    extended precision, flush-to-zero, ...);
  - comparison theorems hold for IEEE 754 binary64/binary32 (Flocq `binary_float`, rounding to
    nearest even, infinities and NaN included); they are proved once from the laws of IEEE
    comparisons (`OrdLaws`) and instantiated;
  - algebraic theorems hold for exact real arithmetic (`NumR`, Coq's `R`).
  Statements that hold for reals but fail with rounding are refuted by an executable binary64
  witness.
* **Vectors** are lists of numbers together with the identity of the space they belong to.
* **Pointers/objects** are keys in a finite heap (`nat`-indexed association); dereferencing a freed
  or unknown object is the distinct outcome *undefined behaviour*, never a default value.
* **Loops** are structural recursion over the index range; unbounded loops are reverse-communication
  steps (the caller supplies the next value) or run with fuel whose exhaustion is a distinct error.
* **Reverse communication**: each `iterate` function is a total function from (state, caller's input)
  to (state, task); a history is a list of calls.

File layout in `rocq/theories`: `*Model.v` (definitions only, each with a citation of the C lines),
`*Spec.v` (independent specifications), `*Proofs.v` (lemmas), `*Props.v` (the property theorems, each
closed by a lemma, with `Print Assumptions` and a concrete example).

## 2. Plan for each property

| id | modelled | proof method |
|----|----------|--------------|
| C01-C03 | heap of reference-counted objects with finalizers, client histories (`ObjModel`) | invariant refs = client refs + in-degree, induction over histories, well-founded drop cascade |
| C04-C08 | generic layer (algebra.c) over the loops of simple_vector.c, vectors in a memory of blocks (`VecModel`, `MemModel`) | induction over the loops, case analysis on the coefficients and on aliasing |
| C09-C12, C52 | nine-case box kernels | componentwise; laws of IEEE comparisons; reals for the step limits |
| C13-C19, C49 | line search objects: API layer and the three methods (`LsModel`) | invariants over histories; real algebra by cases for opk_cstep |
| C20-C26, C51 | complete VMLMB state machine over an arbitrary space (`VmModel`) | invariants over histories; matrix recursion for the two-loop recursion |
| C27-C30 | complete NLCG state machine (`CgModel`) | invariants over histories, real identities; refutation for C30 |
| C31 | strings with uninitialised cells (`StrModel`) | symbolic execution over flags; refutation |
| C32, C53 | simple driver as a wrapper (`DrModel`) | simulation |
| C33-C36 | opk_fmin loop and opk_fmin_next machine (`FminModel`) | invariants, simulation |
| C37, C38 | lcg.c over the routines of linalg.c (`LcgModel`) | invariants over real vectors, conjugacy by induction over the iterations |
| C39-C42 | linalg.c over arrays with checked accesses (`LaModel`) | induction over the loops, triangular systems, Cholesky by rows |
| C43-C45, C54-C56 | bobyqa.c as programs over a memory of cells (`BqLang`, `BqModel`) | program logic (`BqWp`, `BqPc`) over the labels of the machine; binary64 witnesses |
| C46, C47 | option/parameter checks | case analysis with NaN |
| C48, C50 | set_bound/new_boxset, constructors on the object heap | case analysis, invariant with malloc failures |
| C57-C60 | newuoa.c, both compilations (`NwModel`) | program logic; simulation between the two compilations |
| C61-C65 | cobyla.c, both compilations (`CbModel`) | program logic; invariants of trstlp and of the main loop; simulation |
| C66-C68 | gqtpar.c (`GqModel`) | frame lemmas for any arithmetic; invariant of the loop and exact linear algebra |
| C69-C70 | the radius in cobyla.c and newuoa.c (`CbModel`, `NwModel`) | invariants on the values only (`Yields`), laws of rounding (`RhoNum`) |
| C71 | trsapp, biglag, bigden of newuoa.c (`NwModel`) | invariants on the values of the cells in exact arithmetic with an undefined element (`NumE`, `MemE`) |
| C72 | utils.c (`UtModel`) | tables checked against a separate list by computation, induction for the sequences of calls |
| C73 | newuoa_iterate (`NwModel`) | invariant of the machine of newuob over NumE, with the step procedures of C71 and the memory safety of C43 and following for what is left unchanged |
| C74 | bobyqa_reason, newuoa_reason, cobyla_reason (`RsModel`) | case analysis on the integer; invariants of C57 and C61 for the statuses |

## 3. What is modelled and what is not

Modelled (each definition cites its lines): algebra.c, simple_vector.c, dblvector.c/fltvector.c, opk_copy_string
of utils.c, lnsrch.c, vmlmb.c, nlcg.c, driver.c, fmin.c, linalg.c, lcg.c, bobyqa.c, newuoa.c, cobyla.c, gqtpar.c.

Not modelled: opk_error and the default error handler of utils.c (printing and abort), the test programs, all printing (opk_vprint, IPRINT > 0), the Fortran wrappers of bobyqa.c, newuoa.c
and cobyla.c, the Yorick/IDL/Matlab interfaces, errno.

Simplifications, also stated at the head of each model file:

* **Integers.**  Counters, indices and sizes do not overflow, except where a theorem is about an overflow (C18).
* **Objects** (`ObjModel`): addresses are not reused; malloc fails according to an arbitrary list of booleans; client
  callbacks do not call the library; only the simple vector spaces.
* **Vectors in memory** (`MemModel`): all the spaces have the same element type.
* **Optimizers** (`OptSpace`, `VmModel`, `CgModel`): the vectors of the caller belong to the space of the optimizer and
  share no memory with its own vectors; the line search is used by this optimizer only.
* **Driver** (`DrModel`): the arrays of the variables and of the gradient are different.
* **fmin**: NULL pointers are refused and not represented in `opk_fmin_next`.
* **lcg**: the array rho is not in the same memory as the vectors.
* **bobyqa, newuoa, cobyla**: the arrays of the caller do not overlap; the initial contents of the workspace are arbitrary but
  the cells exist and hold numbers; the objective function only reads the variables and may depend on all its previous calls;
  IPRINT = 0.  Conversions of numbers to integers out of a stated range end with the outcome `Cast`.  sin and cos are
  parameters in newuoa; the constants of sin_cos_table are rounded by `nQ`.  In the reverse communication versions the
  variables listed in SAVE and RESTORE are one record.  In cobyla, IACT is a value of trstlp; the access to IACT(0) that the
  code may do for a degenerate active set is the outcome `Cast`; two loops of the geometry step are split
  (see `co_vertex`).
* **gqtpar**: par_ptr, f_ptr and iter_ptr are not in the memory of the arrays; the elements of R are read once per row in
  OPK_ESTSV.
* **Termination.**  Loops without a bound have a fuel; a theorem about a run is either about every fuel, or says that a fuel
  exists.

## 4. Trusted base

* Coq's kernel (8.16.1); nothing is switched off, no plugin is loaded, `native_compute` is not used; some witnesses are
  checked with `vm_compute`.
* The axioms listed below, all of the standard library (classical reals, functional extensionality, excluded middle).  No axiom
  is added: there is no `Axiom`, `Parameter`, `Admitted`, nor `Variable`/`Hypothesis` outside a section.
* The reading of the C code: the translation is by hand; each definition cites the lines it models.
* For the theorems about binary64/binary32: C compiled with strict IEEE semantics (no excess precision, no contraction into
  FMA, no `-ffast-math`), `double` = binary64, `float` = binary32, rounding to nearest even; Flocq's definition of these.
* For the theorems about exact arithmetic: they say nothing about the effect of rounding errors.

### What `Print Assumptions` lists for each theorem of MANIFEST.json

Letters: **F** `ClassicalDedekindReals.sig_forall_dec`, **N** `ClassicalDedekindReals.sig_not_dec`,
**E** `FunctionalExtensionality.functional_extensionality_dep`, **C** `Classical_Prop.classic`; **-** closed under the global
context (no axiom).

| property | theorems by axioms |
|----------|--------------------|
| C01 | **-**: `C01_safe`, `C01_alive`, `C01_last_reference`, `C01_once`, `C01_no_leak` |
| C02 | **-**: `C02_count`, `C02_counters`, `C02_null`, `C02_hold`, `C02_drop`, `C02_hold_null_refuted` |
| C03 | **-**: `C03_exactly_once`, `C03_sequence`, `C03_failed`, `C03_success` |
| C04 | **-**: `C04_peek`, `C04_poke`, `C04_peek_poke`, `C04_import`, `C04_export`, `C04_roundtrip` |
| C05 | **-**: `C05_operands_unchanged`, `C05_copy_swap_fill_product`; **CEFN**: `C05_double`, `C05_single`; **EFN**: `C05_scale_exact`, `C05_axpby_exact`, `C05_axpbypcz_exact` |
| C06 | **-**: `C06_different_spaces`, `C06_projections`, `C06_null` |
| C07 | **EFN**: `C07_values`, `C07_laws` |
| C08 | **-**: `C08_copy`, `C08_null_buffer` |
| C09 | **CEFN**: `C09_ieee`, `C09_single_scalar_bound_refuted`; **EF**: `C09_projection`; **EFN**: `C09_nearest` |
| C10 | **EF**: `C10_direction`; **EFN**: `C10_feasible_steps` |
| C11 | **CEFN**: `C11_free_variables_refuted`; **EF**: `C11_free_variables_partial` |
| C12 | **CEFN**: `C12_double_refuted`; **EFN**: `C12_step_limits` |
| C13 | **-**: `C13_start_any`, `C13_null_refuted`; **CEFN**: `C13_nan_refuted`; **EF**: `C13_start_partial` |
| C14 | **-**: `C14_protocol` |
| C15 | **CEFN**: `C15_backtrack_double_partial`, `C15_backtrack_nan_refuted`; **EF**: `C15_bounds`, `C15_backtrack_partial` |
| C16 | **EF**: `C16_backtrack`, `C16_nonmonotone`, `C16_csrch`; **EFN**: `C16_csrch_exact` |
| C17 | **EF**: `C17_bound`; **EFN**: `C17_factor`, `C17_terminates`, `C17_converges`, `C17_half_refuted` |
| C18 | **CEFN**: `C18_overflow_refuted`; **EF**: `C18_reference` |
| C19 | **EFN**: `C19_accepts`, `C19_cstep_partial`, `C19_zero_derivative_refuted` |
| C20 | **-**: `C20_protocol` |
| C21 | **-**: `C21_variables`; **EF**: `C21_convergence`; **EFN**: `C21_norm_exact` |
| C22 | **CEFN**: `C22_double_refuted`; **EFN**: `C22_decrease_partial` |
| C23 | **CEFN**: `C23_double_refuted`; **EF**: `C23_start_partial`; **EFN**: `C23_feasible_partial` |
| C24 | **-**: `C24_memory`, `C24_growth` |
| C25 | **EF**: `C25_operator`; **EFN**: `C25_direction`, `C25_free_direction`, `C25_blmvm_direction` |
| C26 | **-**: `C26_slope_any`, `C26_nlcg_slope`; **EFN**: `C26_slope_exact`, `C26_nlcg_slope_exact` |
| C27 | **-**: `C27_protocol` |
| C28 | **EF**: `C28_convergence`; **EFN**: `C28_decrease` |
| C29 | **EF**: `C29_perry_shanno`; **EFN**: `C29_direction`, `C29_first` |
| C30 | **CEFN**: `C30_fmin_refuted` |
| C31 | **-**: `C31_nlcg_partial`, `C31_nlcg_overflow`, `C31_refuted`, `C31_vmlmb`, `C31_nlcg_name`, `C31_nlcg_null` |
| C32 | **-**: `C32_driver`, `C32_stateless`, `C32_queries`, `C32_null`, `C32_null_gradient`, `C32_until_start`, `C32_null_queries`, `C32_description_refuted` |
| C33 | **EF**: `C33_values`; **EFN**: `C33_order` |
| C34 | **CEFN**: `C34_rounding_refuted`; **EFN**: `C34` |
| C35 | **-**: `C35_count`; **C**: `C35_limit`; **EFN**: `C35_converges_partial`, `C35_zero_refuted` |
| C36 | **-**: `C36`, `C36_get_final`, `C36_other_point`; **CEFN**: `C36_get_final_refuted`, `C36_again_refuted` |
| C37 | **EFN**: `C37_start`, `C37_next`, `C37_states`, `C37_residual`, `C37_step`, `C37_orthogonal`, `C37_conjugate`, `C37_count`, `C37_finish`, `C37_optimal`, `C37_terminates` |
| C38 | **EFN**: `C38_start`, `C38_next`, `C38_states`, `C38_norm`, `C38_step`, `C38_unchanged`, `C38_decrease`, `C38_residual`, `C38_finish`, `C38_residual_refuted` |
| C39 | **-**: `C39_copy`, `C39_swap`, `C39_axpy`, `C39_scal`, `C39_zero`, `C39_bad_increment`; **EF**: `C39_iamax`; **EFN**: `C39_exact_elements`, `C39_dot`, `C39_sums`, `C39_amax` |
| C40 | **EFN**: `C40_gemv`, `C40_gemv_empty`, `C40_gemm`, `C40_syrk_partial`, `C40_syrk_refuted`, `C40_gemm_code_refuted` |
| C41 | **EFN**: `C41_trmv`, `C41_trsv`, `C41_round_trip` |
| C42 | **EFN**: `C42_potf2`, `C42_decides` |
| C43 | **-**: `C43_partition`, `C43_memory_safe`; **CEFN**: `C43_memory_safe_double`; **EFN**: `C43_memory_safe_exact` |
| C44 | **EFN**: `C44_starting_point` |
| C45 | **CEFN**: `C45_in_bounds_double`, `C45_scaled_double_refuted`; **EFN**: `C45_in_bounds_exact` |
| C46 | **CEFN**: `C46_vmlmb_defaults`, `C46_nlcg_defaults`; **EF**: `C46_vmlmb_options`, `C46_nlcg_options` |
| C47 | **CEFN**: `C47_nan_refuted`; **EF**: `C47_constructors_partial` |
| C48 | **-**: `C48_box` |
| C49 | **CEFN**: `C49_bound_refuted`; **EF**: `C49_backtrack_partial`, `C49_csrch_partial`, `C18_reference` |
| C50 | **-**: `C50_atomic`, `C50_driver_refuted` |
| C51 | **CEFN**: `C51_steps_refuted`; **EFN**: `C51_progress_partial` |
| C52 | **EFN**: `C52_progress` |
| C53 | **-**: `C53_start`, `C53_iterate` |
| C54 | **-**: `C54_count`; **CEFN**: `C54_count_double`, `C54_maxfun_refuted` |
| C55 | **CEFN**: `C55_result_in_bounds_double`, `C55_refused_modified_refuted`; **EFN**: `C55_result_in_bounds_exact` |
| C56 | **EFN**: `C56_best_point_exact`, `C56_step_failed_exact` |
| C57 | **-**: `C57_partition`, `C57_memory_safe`, `C57_status`, `C57_iterate_safe`, `C57_create`, `C57_misuse` |
| C58 | **-**: `C58_count`, `C58_requests`, `C58_success`, `C58_iterate_count` |
| C59 | **CEFN**: `C59_opp`, `C59_few_evaluations_refuted`, `C59_nan_refuted`; **EF**: `C59_best_value`, `C59_best_value_max`; **EFN**: `C59_best_point_exact` |
| C60 | **-**: `C60_client`, `C60_optimize`; **CEFN**: `C60_minus_zero_refuted` |
| C61 | **-**: `C61_partition`, `C61_memory_safe`, `C61_status`, `C61_refused`, `C61_iterate_safe`, `C61_create`, `C61_misuse`; **CEFN**: `C61_arithmetics` |
| C62 | **-**: `C62_count`, `C62_requests`, `C62_success`, `C62_iterate_count` |
| C63 | **-**: `C63_trstlp_refuted`; **CEFN**: `C63_arithmetics`, `C63_nan_refuted` |
| C64 | **-**: `C64_client`, `C64_optimize` |
| C65 | **CEFN**: `C65_best_point_refuted`, `C65_rounding_refuted`; **EFN**: `C65_tried_point_exact` |
| C66 | **-**: `C66_gqt`, `C66_ends`; **CEFN**: `C66_empty_refuted` |
| C67 | **CEFN**: `C67_zero_refuted`, `C67_multiplier_refuted`, `C67_limit_refuted`; **EFN**: `C67_gqt` |
| C68 | **EFN**: `C68_estsv` |
| C69 | **-**: `C69_radius`, `C69_call`, `C69_create`; **CEFN**: `C69_arithmetics`, `C69_restart_refuted`, `C69_nan_refuted`; **EF**: `C69_bounds`, `C69_decreasing`; **EFN**: `C69_count` |
| C70 | **-**: `C70_radius`, `C70_call`; **CEFN**: `C70_positive_refuted`, `C70_restart_refuted`, `C70_nan_refuted`; **EF**: `C70_bounds`, `C70_delta`, `C70_decreasing`; **EFN**: `C70_count` |
| C71 | **CEFN**: `C71_zero_radius_refuted`; **EFN**: `C71_trsapp`, `C71_biglag`, `C71_bigden` |
| C72 | **-**: `C72_constants`, `C72_constants_value`, `C72_reason`, `C72_reason_distinct`, `C72_guess`, `C72_handler`, `C72_all_constants_refuted`, `C72_tolerance_refuted`, `C72_guess_status_refuted` |
| C73 | **CEFN**: `C73_rho_refuted`; **EFN**: `C73_near` |
| C74 | **-**: `C74_bobyqa`, `C74_bobyqa_codes`, `C74_newuoa`, `C74_cobyla`, `C74_documented`, `C74_initial_refuted`, `C74_newuoa_client`, `C74_newuoa_optimize`, `C74_cobyla_client`, `C74_cobyla_optimize` |
