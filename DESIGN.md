# Formal model of hpelm in Rocq (Coq 8.16.1)

## 1. What is modelled and how

The model is a shallow embedding: each Python function becomes a total, computable Gallina
function with the same branches; a raised exception is a value (`Err e`), a mutated object is a
returned new state (also when the call raises).  Each definition cites the file and lines it models.

* `Num.v`: the scalar interface (class `Num`), one model for several scalar domains.
  `NumR` = Coq reals (all algebraic theorems), `NumQ` = exact rationals (executable; all
  witnesses are computed with `vm_compute`).  Theorems that need no arithmetic law are stated for
  *every* `Num`, hence also for IEEE arithmetic with a fixed evaluation order.
* Division that can hit zero returns an `xnum` (`Fin`, `PInf`, `NInf`, `XNaN`) with IEEE's special
  cases, so `0/0` is visible and not an arbitrary real.  A non-finite number that would enter a
  matrix stops the model with `Err NonFinite`.
* Random draws, rankings, the singular-matrix branches of LAPACK/numpy and the schedule of
  processes are *arguments* (oracles) that the theorems quantify over; nothing is assumed about them
  unless the theorem's statement says so.
* `posv` (Cholesky) is modelled by exact elimination on the upper triangle: info > 0 iff a
  pivot is not positive.

Files: `Base Num Mat LinAlg Strs` (libraries), `Slfn Elm Hpelm Search Mss Mrsr Network Async Parallel
Hdf5 Rbf NbatchFloat` (model), `Spec` (specification vocabulary), `Demo MoreDemo` (example models),
`Float SumOf Rounding` (floating point), `Refute*` (witnesses), `Props*` (property theorems only, each with `Print Assumptions`), all
other files are proofs.

## 2. Plan per property

| id | modelled | proof |
|----|----------|-------|
| C01 | `np.array_split`, ELM.add_data loop | induction on chunk sizes |
| C02 | SLFN/SLFNPython.add_batch, add_data | linearity of Gram sums over concatenation |
| C03 | sequences of add_data calls | same, induction over the calls, permutation of sums |
| C04 | weight vector lookup, add_batch with weights, auto weights | one-hot rows give exactly one index; sqrt(w)^2 = w |
| C05 | numpy broadcasting of the weight column | refutation by witness; positive part: one-hot rows |
| C06 | three solvers' add_batch/get_corr | symmetrisation of the triangle, induction over batches |
| C07 | set_corr/get_corr | equality for basic and GPU; witness for the default solver |
| C08 | train, solve, posv | correctness of elimination, positive definiteness, completing the square |
| C09 | solve_corr fallback | matrix passed to lstsq; witness with duplicated neurons |
| C10 | step function over all ELM calls | invariant, induction over call list |
| C11 | same | invariant + ghost history |
| C12,C13 | add_neurons, _prune, _project | list reasoning on columns |
| C14-C17 | predict, project, add_data with ranges | slices concatenate |
| C18-C20 | both `_error` functions | weighted recombination of means; witnesses for NaN / empty |
| C21,C22 | confusion | counting |
| C23-C25 | transition system: main, readers, writer, bounded queues | invariant over all schedules, progress, decreasing measure; witnesses for hangs |
| C26-C28 | transition system: n processes, two files, two locks | invariant over all schedules; witness schedules |
| C29,C30 | files + corr matrices | composition of C02/C17; witness for aliasing |
| C31,C32 | save/load | round trip on well-formed models; witness for accelerator "basic" |
| C33-C35 | the interval search, literally, with Z indices and the -1 sentinel | decreasing measure 4*hull+rank; invariant "minimum is kept" |
| C36-C39 | train_v/train_cv/train_loo | index arithmetic; composition; witnesses |
| C40 | PRESS formula | Sherman-Morrison style identity |
| C41 | mrsr, mrsr2 | invariant i1/i2 partition |
| C42,C43 | normalize_hdf5 | recombination of means; witness |
| C44-C46 | argument parsing on strings | case analysis; witnesses |
| C47 | validation_corr | argmin + C13 |
| C48 | float division and ceil | SpecFloat of the standard library, binary64, round to nearest even |
| C49 | launch arithmetic | div/mod |
| C50,C51 | activation functions | real analysis |
| C52 | rbf_param | induction over the random stream |
| C53-C55 | add_neurons/_project, make_hdf5, _checkdata | case analysis |
| C56 | make_hdf5 on text files | case analysis on np.loadtxt's dimensions |
| C57 | HPELM.train and ELM.train | same batches up to order, uniqueness of the ridge solution |
| C58,C59 | train as a function of the targets | column-wise linear systems, uniqueness |
| C60 | two orders of add_neurons | permuted ridge problem has the permuted solution |
| C61 | weighted training | weighted Gram sums are sums over repeated samples |
| C62-C64 | the trained model as a minimiser | inequalities between minimisers of different objectives |
| C65,C66 | log of the evaluations of the search | hull shrinks by a quarter; distance of the minimum; witness |
| C67,C68 | mrsr, mrsr2 | loop invariant over the first steps |
| C100 | mrsr | invariant along the path of equal correlations; the step length is the smallest nonnegative quotient |
| C101 | mrsr2 | invariant along the path: a step goes towards the fit that includes the new neuron; lengths are convex along a step, so the smallest root found bounds all candidates |
| C102 | train, error, mrsr, mrsr2 with targets in another unit | two executions in lockstep: every comparison in rankings and search is invariant under positive factors, all computed matrices are homogeneous; the three library routines are assumed homogeneous (`unit_free`) |
| C103 | train after anything | reset and parse_args overwrite every field but the output weights, which train never reads |
| C104 | train and cross-validation with the samples in another order | the accumulated matrices are sums over the samples, so they do not change over the reals; every error is a mean over samples; cross-validation with the parts permuted accordingly selects from the same averages |
| C105 | project, train, predict, add_neurons with changed inputs | lockstep: each neuron has the same value on the changed sample, so all matrices are equal; pruning commutes with the change of the neurons |
| C106 | train, predict with more data | rank-one update of the normal equations (uniqueness of the ridge solution); comparison of the two minimal objectives |
| C107 | project and predict on IEEE numbers | C73's bound for x.w+b, Lipschitz constants of sigm and tanh, then C74's bound for H.B |
| C108 | batches of add_data, predict, error with negative istart | Python slices with negative bounds; batches split at the first non-negative start |
| C109 | project and predict on IEEE numbers, with rbf_l1 and rbf_l2 | rounding of the distance, its square and the quotient bounds the argument of exp; exp(a+d) = exp(a) exp(d); with C15 for HPELM.predict |
| C69,C70 | constructor | case analysis; substring test; witness |
| C71 | add_neurons without W and B | composition of the default weights and the activation |
| C72 | add_data in any arithmetic | inductive relation "sum of these terms in some order" as invariant |
| C76,C80 | `train`, `hp_train`, `parse_args` | the operations commute with replacing the forgotten fields |
| C77 | `train` | permutation invariance of the sums, uniqueness of the ridge solution |
| C78 | `elm_error`, `hp_error` | the means of `ErrThms`, case analysis per task |
| C79 | `Sizes.vc_sizes` | monotonicity of exp/ln; binary64 witness by rational bounds of exp (`ExpQ.v`) |
| C81,C82 | `hp_check`, `checkcorr`, `add_data`, `hp_add_data` | case analysis; prefix of the batches as inductive relation; witness |
| C83,C84 | `train` | expansion of the ridge objective around its minimum; scaled normal equations |
| C85-C87 | named files, table of open files | invariants of every step; induction on histories; witness |
| C88 | `elm_str` | unique decomposition of the string |
| C89 | progress reports with an arbitrary clock | induction over the batches |
| C90 | normal equations with an arbitrary B' | positive definiteness of HH - norm I; with rounding, the bounds of C72-C73 |
| C91-C93 | `trained` | uniqueness of the ridge solution |
| C94 | `set_B`, `set_corr`, `add_neurons` | case analysis; groups of one type have one height |
| C73-C75 | the same functions on IEEE numbers | standard model of rounding proved for SpecFloat (`Float.v`), error analysis by induction on sums |

Properties the code violates get a theorem `..._refuted` with a concrete witness and, where
useful, a `..._partial` theorem under the exact guard that makes the claim true.

## 3. Trusted base

* Coq 8.16.1's kernel, including `vm_compute` (used for witnesses); no kernel check is switched off.
* The axioms of the standard library listed in section 6, and no others: `sig_forall_dec` and
  `sig_not_dec` (construction of the reals), `functional_extensionality_dep` (used by the library
  of reals), and `Classical_Prop.classic` for a few theorems that use real analysis from the library.
* That the definitions of the model say what the code does (section 4), and that `Spec.v` and the
  statements in `Props*.v` say what the properties say.  These are read by people; the proofs
  say nothing about them.

## 4. Which parts of the code are modelled

| code | model | remarks |
|------|-------|---------|
| elm.py `__init__` 55-98 | `Elm.elm_init` | argument types are taken as correct; `accelerator is "GPU"` is equality of strings |
| elm.py `_train_parse_args`, `train` 108-205 | `Elm.parse_args`, `Mss.train` | a negative kmax is not modelled |
| elm.py `add_data`, `add_neurons` 207-287 | `Elm.add_data`, `Elm.add_neurons` | random weights are arguments |
| elm.py `error`, `_error`, `confusion` 289-357, 475-515 | `Elm.elm_error`, `raw_error`, `raw_press`, `confusion` | |
| elm.py `project`, `predict` 359-383 | `Elm.elm_project`, `elm_predict` | |
| elm.py `save`, `dumps`, `load`, `loads` 385-468 | `Elm.output_format`, `update_from` | pickle is taken as faithful; conversion between precisions (astype): `Convert.load_as`, `Cast.cast` |
| elm.py `_ranking`, `_checkdata` 517-590 | `Mss.ranking`, `Elm.checkdata`, `Hpelm.check_src` | the element type test is modelled by `ArrObj` |
| elm.py `__str__` 100-106 | `Str.v` | the printed form of a ufunc is a parameter |
| elm.py `_checkdata`, `__del__`: open files | `Files.v` | one process; PyTables' table of open files with its default policy; the contents a failing writer leaves are a parameter; predict_async and the file arguments of add_data_async are not in the histories |
| nnets/slfn.py, slfn_python.py | `Slfn.v` with kinds `Basic` and `Fast` | `fix_affinity` is not modelled |
| nnets/slfn_skcuda.py | `Slfn.v` with kinds `Gpu64` and `Gpu32`; the sigmoid kernel in `Rbf.v` | other device code is taken as computing the formula it names; threads are atomic |
| hp_elm.py 57-460, 613-649 | `Hpelm.v`; the sizes of `validation_corr` in `Sizes.v` (exact reals); progress reports in `Progress.v` | times are rationals |
| hp_elm.py 464-611 and hdf5_tools.py `_ireader`, `_iwriter` | `Network.v`, `Async.v` | processes and bounded queues; every schedule |
| hdf5_tools.py `_prepare_fHH`, `_write_fHH` | `Hpelm.prepare_fs`, `write_fs`; `Parallel.v` for several processes | read and write of a file are separate steps; death in the middle of one HDF5 write is not modelled |
| hdf5_tools.py `normalize_hdf5`, `make_hdf5` | `Hdf5.v` | element types, compression and number formats are not modelled; PyTables' refusal of empty dimensions is not modelled |
| mss_v.py, mss_cv.py, mss_loo.py | `Search.v`, `Mss.v` | |
| modules/mrsr.py, mrsr2.py | `Mrsr.v` | the Brent minimiser of mrsr2 is an oracle |
| modules/rbf_param.py | `Rbf.v` | |
| `int(np.ceil(float(N)/batch))` | `Elm.nbatches` (exact), `NbatchFloat.v` (binary64) | C48 shows that they agree |

Simplifications that apply everywhere:

* Numbers are exact in the theorems on `NumR` and `NumQ`.  Theorems stated for every `Num` do not depend
  on this.  Rounding is modelled in C48, C72-C75, C107 and C109: `Rounding.NumF` is an instance of `Num` made of the
  standard library's `SpecFloat` operations (any precision; binary64 and binary32 are the cases used), so there the
  same model functions run on IEEE numbers.  The error bounds need only the record `rounded`
  (relative error u, underflow error eta), are independent of the order of summation for the accumulated matrices
  (`SumOf.sum_of`), and assume that the result is finite.  Not covered: fused multiply-add (BLAS may
  use it), rounding inside the linear solver, and rbf_linf neurons.  exp and tanh are parameters
  of `NumF`; C107 and C109 assume a bound for their error (`RoundNet.library`).
* A matrix is a list of rows; the number of columns of an array argument is carried beside it, so an
  array with zero rows has a width.
* On a singular system, what numpy returns comes from the oracle `Sing`.
* A negative `batch` given to `train` gives no iterations, `batch = 0` is ZeroDivisionError, as in Python.

## 5. Where the code disagrees with its documentation or with the property

Each line names the theorem with the witness.

* C03, C29 (`C03_automatic_weights_refuted`, `C29_auto_weights_refuted`): automatic class weights come from the first part of the data only, or from each range separately.
* C05 (`C05_misaligned_refuted`, `C05_broadcast_refuted`): targets that are not one-hot can pass the weight lookup and give weights to the wrong samples. `C05_exact` says exactly which targets pass and which weights they get.
* C07, C09 (`C07_default_refuted`, `C09_default_files_refuted`): the default solver adds the strict upper triangle again when it is given a full symmetric matrix.
* C10, C32 (`C10_load_refuted`, `C32_refuted`): load into an object with an accelerator keeps old neurons and the old number of inputs; the model then fails with ValueError when it is used. `C32_accelerated_exact`: a trained model can be loaded into such an object exactly if it has no neurons and the same number of outputs.
* C16 (`C16_refuted`, `C16_later`): HPELM.project stores at `H[start:stop-istart]`, wrong for every istart > 0.
* C19, C20, C47 (`_refuted`): 0/0 in the per-class error of HPELM; an empty range is reported as error 0; NaN wins np.argmin. C47_weighted / C47_weighted_nan: the outcome of validation_corr for 'wc' in both cases; the reported error is the mean of the weighted errors of the batches, so it depends on the batch size.
* C23, C25 (`_refuted`): negative istart kills the writer process unnoticed; four kinds of calls hang. `C25_predict_async_file` says which: a batch that does not fit into its place of the output file stops the call for ever, unless it is the last one; then the call returns and its rows are zero.
* C27, C28 (`_refuted`): creation of the shared files is outside the lock; HH and HT are written separately.
* C30 (`C30_basic_refuted`): with the basic solver, writing to files subtracts norm from the model in memory.
* C35, C37, C38, C39 (`_refuted`): CV fails below three neurons; it returns the error of the full model; with kmax the error of the full model is recorded at kmax; the final fit ignores class weights.
* C41 (`C41_refuted`): mrsr fails with one neuron and on uncorrelated data; mrsr2 ranks at most as many neurons as samples.
* C101 (`C101_refuted`): mrsr2 recomputes the least-squares fit with the new neuron before it moves the output (mrsr2.py 112-130), while the step length was computed for the fit without it; so the correlations it made equal are not equal after the step, and the ranking differs from that of mrsr already for one output.
* C42, C43 (`_refuted`): std given as a list is changed at index 0; without parameters the data is never normalised.
* C79 (`C79_refuted`, `C79_binary64_refuted`): validation_corr reports 3 neurons for smaller models; ceil(e**log(L)) is L+1 for some L, e.g. 10.
* C44, C45, C46, C70 (`_refuted`): letter case of arguments, order of 'R', state lost by a rejected call, 'Single'.
* C49 (`C49_refuted`): the kernel has no bounds test.
* C51 (`C51_refuted`): sigm computes 1/(1+exp(+z)).
* C52 (`C52_refuted`): rbf_param never returns when all measured distances are zero, and only then (`C52_returns_iff`).
* C53 (`C53_refuted`): a ufunc is accepted as neuron type and fails later.
* C56 (`C56_refuted`): a compressed text file with one line changes its shape.
* C82 (`C82_refuted`, `C82_lost_refuted`): ELM.add_data does not check T: HH is updated before the ValueError, HT is not. HPELM.add_data with a missing fHH and a wrong fHT creates fHH and forgets the data in memory before it raises.
* C89 (`C89_async_refuted`, `C89_async_last`): add_data_async, train_async and predict_async count one batch too many in their progress reports; the last one says nb+1 of nb and prints a negative remaining time, so that 2 seconds become 0:59:58.
* C85 (`C85_refuted`): HPELM keeps every data file open until the model is deleted. predict(fX, fY), error(fT, fY), predict(fX, fY): the second predict raises ValueError; normalize_hdf5 of a file used in training raises; a failing predict leaves its output file open.
* C87 (`C87_same_name_refuted`): fHH and fHT may be the same file when the number of neurons equals the number of outputs; HH and HT are then added up in it.
* C96 (`C96_refuted`): weighted classification with 'CV' and no w always raises TypeError (`C96_cv_auto`), because only add_data computes automatic weights; with 'V' and 'LOO' a class without samples gets an infinite weight and the error is NaN; the PRESS denominators of 'LOO' use the weighted matrix but not the weight of the sample, and can be 0.
* C99 (`C99_refuted`, `C99_training_error`): in classification 'LOO' divides the misclassifications of the training data by (1-leverage)^2 and adds them up. This is not the leave-one-out error: it is 0 whenever the training data are classified right, and it can exceed 1.
* C108 (`C108_refuted`, `C108_all`, `C108_last`): add_data, predict and error do not check istart >= 0. With istart=-m a batch X[-k:s] is empty, so samples are left out, and the batches after it start again at the beginning of the data; the samples used depend on the batch size. With istart=-m, icount=m the last batch is X[-k:0], which is empty; predict raises ValueError. HPELM.train alone clips istart at 0.
* C66 (`C66_refuted`): structure selection can miss the best size of a unimodal error.

Observed while reading, not stated as properties: normalize_hdf5 reads node attributes after the file is closed
(parameter `after_close`); the stored std keeps zeros; the mode "rU" was removed in Python 3.11;
the documented vector `steps` of validation_corr raises TypeError.

## 6. Print Assumptions

Generated from the compiled files.

No axioms ("Closed under the global context") (177 theorems):
C01_batches_cover, C01_batches_cover_weighted, C01_empty_rejected, C03_automatic_weights_refuted, C04_task, C05_accepted_batches_partial, C05_broadcast_refuted, C05_misaligned_refuted, C07_default_refuted, C09_default_files_refuted, C09_default_solvable, C101_refuted, C103_calls, C103_hpelm, C103_train, C104_cv_across, C108_add_data_partial, C108_error_partial, C108_predict_partial, C108_refuted, C108_train, C10_consistent_partial, C10_load_refuted, C11_add_neurons_clears, C11_new_model_clear, C11_predict_raises, C11_prune_clears, C12_add_neurons, C13_prune, C14_concat, C14_samplewise, C15_predict_into, C15_predict_range, C16_into, C16_later, C16_project_range_partial, C16_refused, C16_refuted, C19_refuted, C20_refuted, C23_predict_async_partial, C23_predict_async_raises, C23_refuted, C24_add_data_async, C24_add_data_async_raises, C24_train_async, C24_train_async_raises, C25_add_data_async_partial, C25_predict_async_array, C25_predict_async_file, C25_refuted, C26_contribution, C27_refuted, C28_refuted, C29_auto_weights_refuted, C30_basic_refuted, C30_exact, C31_roundtrip, C32_accelerated_exact, C32_fresh_partial, C32_no_accelerator_partial, C32_refuted, C35_refuted, C36_folds, C37_refuted, C38_refuted, C39_refuted, C41_clamp, C41_mrsr2_partial, C41_mrsr_partial, C41_mrsr_single_fails, C41_refuted, C42_refuted, C43_refuted, C43_unchanged, C44_R_last, C44_accepted, C44_case_partial, C44_lower_case_ignored, C44_order_partial, C44_refuted, C44_rejected, C44_selection, C44_task, C44_type_partial, C45_exact, C45_lower_case_partial, C45_refuted, C46_add_neurons, C46_refuted, C46_train_partial, C47_nan, C47_refuted, C48_nbatches, C52_one_sample, C52_pairs, C52_result, C53_accepted_partial, C53_exact, C53_refuted, C53_standard_partial, C53_ufunc, C54_matrix, C54_shape, C54_vector, C55_error, C55_project, C55_train, C55_validation, C56_compressed_partial, C56_one_line, C56_ragged, C56_ragged_compressed, C56_refuted, C56_text, C66_refuted, C67_prefix, C67_prefix2, C69_accepts, C69_attributes, C70_precision_partial, C70_refuted, C72_once, C72_weighted, C76_hpelm, C76_train, C80_no_selection, C81_refuses, C81_refuses_corr, C81_refuses_error, C81_refuses_predict, C81_source, C81_source_error, C81_source_predict, C82_elm_partial, C82_files, C82_hpelm, C82_lost_refuted, C82_plain_partial, C82_refuted, C85_blocked, C85_error_partial, C85_open_files, C85_predict_partial, C85_project_partial, C85_refuted, C85_train_partial, C85_validation_partial, C86_later, C86_only_outputs, C86_same_call, C87_add_data_partial, C87_same_name, C87_same_name_refuted, C87_solve_corr, C88_determines, C88_format, C89_async_last, C89_async_partial, C89_async_refuted, C89_documented, C89_last, C89_quiet, C94_add_neurons, C94_add_neurons_default, C94_only_B, C94_only_W, C94_set_B, C94_set_corr, C94_without_neurons, C95_structure, C96_refuted, C97_batch, C97_hpelm_batch, C97_hpelm_ignored, C97_ignored, C97_kmax

`ClassicalDedekindReals.sig_forall_dec`, `ClassicalDedekindReals.sig_not_dec`, `Classical_Prop.classic`, `FunctionalExtensionality.functional_extensionality_dep` (14 theorems):
C107_doubles, C107_network, C107_neuron, C109_hpelm, C109_network, C109_neuron, C50_ranges, C51_refuted, C71_rbf, C79_binary64_refuted, C79_refuted, C79_rounded, C79_sizes_partial, C95_predictions

`ClassicalDedekindReals.sig_forall_dec`, `ClassicalDedekindReals.sig_not_dec`, `FunctionalExtensionality.functional_extensionality_dep` (165 theorems):
C02_accumulated_matrices, C03_automatic_exact, C03_incremental, C03_incremental_weighted, C04_automatic_weights, C04_given_weights, C05_exact, C06_solvers_agree, C07_default_exact, C07_roundtrip_default_partial, C07_roundtrip_partial, C08_ridge, C08_ridge_weighted, C09_basic, C09_default_files, C09_gpu_files, C09_least_squares, C100_path, C101_choice_partial, C101_equal_partial, C101_first_partial, C101_path_partial, C102_error, C102_failure, C102_ranking, C102_training, C104_cv, C104_order, C104_ranking, C105_constant, C105_neurons, C105_order, C105_shift, C105_units, C106_added, C106_copies, C106_known, C108_all, C108_last, C109_formats, C11_solve_after_add_neurons, C11_solve_after_prune, C12_named, C12_neuron_formulas, C14_value, C17_consecutive_ranges, C17_empty_range, C17_range, C17_range_auto_weights, C17_range_weights, C17_train, C18_agree, C18_elm_mean, C18_hpelm_mean, C19_elm, C19_hpelm_absent_class, C19_hpelm_partial, C20_elm_rejects_partial, C20_hpelm_returns_zero, C20_weighted_elm, C20_weighted_hpelm, C21_counts, C21_totals, C22_counts, C26_parallel, C26_ridge, C26_sequential, C27_creation_partial, C28_crash_partial, C29_files, C29_files_weighted, C30_memory_partial, C31_retrain, C31_retrain_weighted, C33_loo_op, C33_loo_works, C33_search, C33_terminates, C33_validation_op, C33_validation_works, C34_cv, C34_loo, C34_validation, C35_cv_op_partial, C35_cv_small_fails, C35_cv_works_partial, C35_exact, C37_full_model_partial, C38_all_ranked_partial, C39_unweighted_partial, C40_loo_error, C40_train, C41_mrsr2_total, C41_mrsr_orthogonal, C41_mrsr_outcome, C41_mrsr_succeeds, C42_applied_partial, C42_list, C42_statistics, C43_two_calls_partial, C47_validation_partial, C47_weighted, C47_weighted_nan, C49_refuted, C49_sigm_partial, C51_mirrored_partial, C51_negated_partial, C52_never, C52_refuted, C52_returns_iff, C52_terminates_partial, C52_values, C57_same_model, C58_outputs_independent, C59_linear, C60_neuron_order, C61_weights_are_repetitions, C62_norm, C62_weighted, C63_more_neurons, C64_no_worse_than_zero, C65_few_evaluations, C66_near_partial, C68_first_choice, C68_first_choice2, C69_default_norm, C71_linear, C71_scaled, C73_accumulated, C73_formats, C73_root, C73_splits, C73_weighted, C74_predict, C75_elm, C75_hpelm, C77_order, C78_elm, C78_hpelm, C78_order, C78_order_hpelm, C78_order_weighted, C78_weighted, C83_energy, C83_stability, C83_weighted, C84_repeated, C90_approximate, C90_certified, C90_rounded, C91_exact_targets, C92_output_maps, C93_neurons_twice, C96_cv_auto, C96_cv_given_partial, C96_loo_absent, C96_loo_auto_partial, C96_loo_given_partial, C96_validation_auto_partial, C96_validation_given_partial, C97_training, C98_scaled, C98_zero, C99_refuted, C99_selection

`ClassicalDedekindReals.sig_forall_dec`, `FunctionalExtensionality.functional_extensionality_dep` (4 theorems):
C52_metric, C95_narrower, C95_wider, C99_training_error

