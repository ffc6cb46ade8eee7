{
 "claims": [
  {
   "property": "C01",
   "status": "proved",
   "theorems": [
    "C01_batches_cover",
    "C01_batches_cover_weighted",
    "C01_empty_rejected"
   ],
   "note": "For every scalar type (no arithmetic law used)."
  },
  {
   "property": "C02",
   "status": "proved",
   "theorems": [
    "C02_accumulated_matrices"
   ],
   "note": "Exact (real) arithmetic; every solver kind, every batch size."
  },
  {
   "property": "C03",
   "status": "partial",
   "theorems": [
    "C03_incremental",
    "C03_incremental_weighted",
    "C03_automatic_weights_refuted",
    "C03_automatic_exact"
   ],
   "note": "Proved for regression/classification/multi-label and for weighted classification with given weights. False for automatic class weights: they are taken from the first part only (refuted). C03_automatic_exact says what happens instead: the calls succeed exactly if the first part contains all classes, and use its weights for all parts."
  },
  {
   "property": "C04",
   "status": "proved",
   "theorems": [
    "C04_given_weights",
    "C04_automatic_weights",
    "C04_task",
    "C97_training"
   ],
   "note": "One-hot targets; exact arithmetic."
  },
  {
   "property": "C05",
   "status": "partial",
   "theorems": [
    "C05_exact",
    "C05_accepted_batches_partial",
    "C05_misaligned_refuted",
    "C05_broadcast_refuted"
   ],
   "note": "The claim is false of the code: two witnesses. Proved exactly (C05_exact): a call succeeds if and only if every batch contains as many ones as rows, or exactly one 1; the ones of the batch in row-major order give the weights of its rows."
  },
  {
   "property": "C06",
   "status": "proved",
   "theorems": [
    "C06_solvers_agree"
   ],
   "note": "Histories of add_batch calls, weighted or not; exact arithmetic."
  },
  {
   "property": "C07",
   "status": "partial",
   "theorems": [
    "C07_roundtrip_partial",
    "C07_roundtrip_default_partial",
    "C07_default_refuted",
    "C07_default_exact"
   ],
   "note": "Proved for the basic and GPU solvers; for the default solver only for upper-triangular storage; refuted for the default solver with a full symmetric HH. C07_default_exact: what comes back for any HH; it is HH exactly if HH is zero above the diagonal."
  },
  {
   "property": "C08",
   "status": "proved",
   "theorems": [
    "C08_ridge",
    "C08_ridge_weighted"
   ],
   "note": "All solver kinds; exact arithmetic."
  },
  {
   "property": "C09",
   "status": "partial",
   "theorems": [
    "C09_least_squares",
    "C09_gpu_files",
    "C09_default_files_refuted",
    "C09_default_solvable",
    "C09_default_files",
    "C09_basic"
   ],
   "note": "Proved for matrices accumulated in memory (default and GPU solver), for the GPU solver on files and for the basic solver, under the stated specification of numpy lstsq and pinv on singular matrices. Refuted for the default solver on full symmetric matrices (files); C09_default_files gives the exact outcome there: the right system when the matrix is positive definite, otherwise least squares of the matrix whose part below the diagonal is doubled."
  },
  {
   "property": "C10",
   "status": "partial",
   "theorems": [
    "C10_consistent_partial",
    "C10_load_refuted"
   ],
   "note": "Holds for every history in which load into an object with an accelerator has the same number of inputs; C10_load_refuted shows an inconsistent model otherwise."
  },
  {
   "property": "C11",
   "status": "proved",
   "theorems": [
    "C11_add_neurons_clears",
    "C11_prune_clears",
    "C11_new_model_clear",
    "C11_predict_raises",
    "C11_solve_after_add_neurons",
    "C11_solve_after_prune"
   ],
   "note": ""
  },
  {
   "property": "C12",
   "status": "proved",
   "theorems": [
    "C12_add_neurons",
    "C12_neuron_formulas",
    "C12_named"
   ],
   "note": ""
  },
  {
   "property": "C13",
   "status": "proved",
   "theorems": [
    "C13_prune"
   ],
   "note": ""
  },
  {
   "property": "C14",
   "status": "proved",
   "theorems": [
    "C14_samplewise",
    "C14_concat",
    "C14_value"
   ],
   "note": ""
  },
  {
   "property": "C15",
   "status": "proved",
   "theorems": [
    "C15_predict_range",
    "C15_predict_into"
   ],
   "note": ""
  },
  {
   "property": "C16",
   "status": "partial",
   "theorems": [
    "C16_project_range_partial",
    "C16_later",
    "C16_refuted",
    "C16_into",
    "C16_refused"
   ],
   "note": "Holds for istart = 0. For every istart >= 1 (C16_later) it never holds: the result is ValueError, or zeros when batches have one sample."
  },
  {
   "property": "C17",
   "status": "proved",
   "theorems": [
    "C17_range",
    "C17_range_weights",
    "C17_range_auto_weights",
    "C17_empty_range",
    "C17_consecutive_ranges",
    "C17_train"
   ],
   "note": "Automatic class weights are those of the range itself, so consecutive ranges with automatic weights differ from one call (C29_auto_weights_refuted)."
  },
  {
   "property": "C29",
   "status": "partial",
   "theorems": [
    "C29_files",
    "C29_files_weighted",
    "C29_auto_weights_refuted"
   ],
   "note": "Holds without class weights and with given class weights; automatic weights are computed per range."
  },
  {
   "property": "C30",
   "status": "partial",
   "theorems": [
    "C30_memory_partial",
    "C30_basic_refuted",
    "C30_exact"
   ],
   "note": "Holds on all solvers but Basic; C30_basic_refuted: the Basic solver loses norm on the diagonal. C30_exact: nothing else differs."
  },
  {
   "property": "C50",
   "status": "proved",
   "theorems": [
    "C50_ranges"
   ],
   "note": "Over the reals (no overflow or rounding)."
  },
  {
   "property": "C51",
   "status": "partial",
   "theorems": [
    "C51_mirrored_partial",
    "C51_negated_partial",
    "C51_refuted"
   ],
   "note": "The code computes 1/(1+exp(+z)); with negated weights and bias it is the logistic function."
  },
  {
   "property": "C53",
   "status": "partial",
   "theorems": [
    "C53_standard_partial",
    "C53_accepted_partial",
    "C53_refuted",
    "C53_exact",
    "C53_ufunc"
   ],
   "note": "Standard types work; a ufunc is accepted by add_neurons and then fails with KeyError in project. C53_exact, C53_ufunc: the outcome for every model."
  },
  {
   "property": "C18",
   "status": "proved",
   "theorems": [
    "C18_hpelm_mean",
    "C18_elm_mean",
    "C18_agree"
   ],
   "note": "Exact arithmetic, equal numbers of target and prediction rows, at least one output."
  },
  {
   "property": "C19",
   "status": "partial",
   "theorems": [
    "C19_elm",
    "C19_hpelm_partial",
    "C19_hpelm_absent_class",
    "C19_refuted"
   ],
   "note": "ELM.error is the weighted average of the per-class rates; HPELM.error is too if every class occurs in the range, and is NaN (0/0) whenever a class is absent."
  },
  {
   "property": "C20",
   "status": "partial",
   "theorems": [
    "C20_elm_rejects_partial",
    "C20_hpelm_returns_zero",
    "C20_weighted_elm",
    "C20_weighted_hpelm",
    "C20_refuted"
   ],
   "note": "False: HPELM.error returns 0 on every empty range, ELM.error with class weights returns 0 on zero samples. ELM.error without class weights does raise. HPELM.error with class weights returns NaN."
  },
  {
   "property": "C21",
   "status": "proved",
   "theorems": [
    "C21_counts",
    "C21_totals"
   ],
   "note": "C21_totals speaks about the mean of the 0/1 errors, which C18_elm_mean shows to be ELM.error for task type 'c'."
  },
  {
   "property": "C22",
   "status": "proved",
   "theorems": [
    "C22_counts"
   ],
   "note": ""
  },
  {
   "property": "C33",
   "status": "proved",
   "theorems": [
    "C33_terminates",
    "C33_search",
    "C33_validation_works",
    "C33_loo_works",
    "C33_validation_op",
    "C33_loo_op"
   ],
   "note": "Reals. The fuel of the model is never exhausted; every landscape gives a size in range or the error raised by an evaluation; sizes of the trained model are in C34's theorems."
  },
  {
   "property": "C34",
   "status": "proved",
   "theorems": [
    "C34_validation",
    "C34_loo",
    "C34_cv"
   ],
   "note": "Reals, non-negative class weights. The size L stands for the full model's error (see C38)."
  },
  {
   "property": "C35",
   "status": "partial",
   "theorems": [
    "C35_exact",
    "C35_cv_works_partial",
    "C35_cv_op_partial",
    "C35_cv_small_fails",
    "C35_refuted"
   ],
   "note": "False: with fewer than three ranked neurons 'CV' always raises. C35_exact: it works exactly if 3 <= k <= number of samples and at least three neurons are ranked (random or mrsr2 ranking, no class weights; with class weights see C96). C35_cv_op_partial: sufficient condition with the mrsr ranking."
  },
  {
   "property": "C36",
   "status": "proved",
   "theorems": [
    "C36_folds",
    "C34_cv"
   ],
   "note": "C34_cv shows that train uses such folds."
  },
  {
   "property": "C37",
   "status": "partial",
   "theorems": [
    "C37_full_model_partial",
    "C37_refuted"
   ],
   "note": "False: the value returned is the mean test error of the full model."
  },
  {
   "property": "C38",
   "status": "partial",
   "theorems": [
    "C38_all_ranked_partial",
    "C38_refuted"
   ],
   "note": "False with kmax below the number of neurons: the full model's error is recorded. Holds when all neurons are ranked."
  },
  {
   "property": "C39",
   "status": "partial",
   "theorems": [
    "C39_unweighted_partial",
    "C39_refuted"
   ],
   "note": "Holds without class weights; the final fit ignores class weights."
  },
  {
   "property": "C40",
   "status": "proved",
   "theorems": [
    "C40_loo_error",
    "C40_train"
   ],
   "note": "Exact arithmetic, regression."
  },
  {
   "property": "C41",
   "status": "partial",
   "theorems": [
    "C41_mrsr_partial",
    "C41_mrsr2_partial",
    "C41_mrsr2_total",
    "C41_mrsr_single_fails",
    "C41_refuted",
    "C41_clamp",
    "C41_mrsr_outcome",
    "C41_mrsr_succeeds",
    "C41_mrsr_orthogonal"
   ],
   "note": "With independent columns (exact arithmetic) mrsr fails only if a residual on its path is orthogonal to all neurons; it succeeds if the least squares solution uses enough neurons. Every ranking returned lists distinct existing columns; mrsr fails on one neuron and on data uncorrelated with the targets; mrsr2 returns at most as many neurons as there are samples."
  },
  {
   "property": "C31",
   "status": "proved",
   "theorems": [
    "C31_roundtrip",
    "C31_retrain",
    "C31_retrain_weighted"
   ],
   "note": "Every model in a consistent state (C10) except the degenerate one with output weights but no neurons; pickling itself is taken as faithful, conversion to another precision not modelled. Retraining compared for basic training, exact arithmetic."
  },
  {
   "property": "C32",
   "status": "partial",
   "theorems": [
    "C32_no_accelerator_partial",
    "C32_fresh_partial",
    "C32_accelerated_exact",
    "C32_refuted"
   ],
   "note": "True for objects without accelerator, and for fresh accelerated objects of the same dimensions; false for an accelerated object that already has neurons: they are kept. C32_accelerated_exact says for every accelerated object which of the outcomes happens and what the object then contains."
  },
  {
   "property": "C44",
   "status": "partial",
   "theorems": [
    "C44_accepted",
    "C44_rejected",
    "C44_type_partial",
    "C44_order_partial",
    "C44_case_partial",
    "C44_lower_case_ignored",
    "C44_R_last",
    "C44_refuted",
    "C44_task",
    "C44_selection",
    "C34_validation",
    "C34_cv",
    "C34_loo"
   ],
   "note": "Acceptance and task type are as stated when 'R' is not among the arguments; false in two ways: 'v', 'cv', 'loo' in lower case are accepted but no structure selection is done, and 'R' combined with 'C' depends on the order. C44_task: the task type after train for every argument list. The selection named in upper case is the one performed: C34_validation, C34_cv, C34_loo (for every argument list) and C44_selection."
  },
  {
   "property": "C45",
   "status": "partial",
   "theorems": [
    "C45_lower_case_partial",
    "C45_refuted",
    "C45_exact"
   ],
   "note": "Exactly the lower-case names are honoured; 'C', 'Ml', ... are kept in their letter case and then treated as regression. C45_exact: the outcome for every string."
  },
  {
   "property": "C46",
   "status": "partial",
   "theorems": [
    "C46_add_neurons",
    "C46_train_partial",
    "C46_refuted"
   ],
   "note": "add_neurons: proved. train: predictions and later train calls are unaffected (unless batch= was given), but the task type, class weights and accumulated data are lost and batch is kept."
  },
  {
   "property": "C55",
   "status": "proved",
   "theorems": [
    "C55_project",
    "C55_error",
    "C55_train",
    "C55_validation"
   ],
   "note": "Arrays as ndarray arguments; file names are in C20 and C54."
  },
  {
   "property": "C23",
   "status": "partial",
   "theorems": [
    "C23_predict_async_partial",
    "C23_predict_async_raises",
    "C23_refuted"
   ],
   "note": "For every schedule, a file argument, batch > 0 and istart >= 0: no deadlock, same result or exception as predict. Refuted for negative istart (the writer process dies unnoticed and the call returns normally)."
  },
  {
   "property": "C24",
   "status": "proved",
   "theorems": [
    "C24_add_data_async",
    "C24_add_data_async_raises",
    "C24_train_async",
    "C24_train_async_raises"
   ],
   "note": "Every schedule, pipe capacity, file data and batch size > 0; also with the fHH/fHT files and for train_async."
  },
  {
   "property": "C25",
   "status": "partial",
   "theorems": [
    "C25_add_data_async_partial",
    "C25_predict_async_file",
    "C25_predict_async_array",
    "C23_predict_async_partial",
    "C25_refuted"
   ],
   "note": "Exact classification of the add_data_async and predict_async calls that hang (batch > 0; for predict_async also of what is in the output file); refuted by four hanging calls."
  },
  {
   "property": "C26",
   "status": "proved",
   "theorems": [
    "C26_contribution",
    "C26_parallel",
    "C26_sequential",
    "C26_ridge"
   ],
   "note": "Process model of the shared files (Parallel.v): steps check/create/compute/lock/read/write/unlock, any number of processes, any schedule without deaths. Every schedule is finite, nobody waits for ever, the files get the sum of all contributions; the contribution of a process is what its add_data call adds when alone; solving the result is the ridge solution of all data. Over the reals."
  },
  {
   "property": "C27",
   "status": "partial",
   "theorems": [
    "C27_creation_partial",
    "C27_refuted"
   ],
   "note": "False as stated: the existence test and the creation are not under the lock. Witnesses: a lost contribution, a process that raises. Proved when one process is through the creation first."
  },
  {
   "property": "C28",
   "status": "partial",
   "theorems": [
    "C28_crash_partial",
    "C28_refuted"
   ],
   "note": "False as stated: a death between the write of HH and the write of HT leaves different sets. Proved for every schedule with any deaths as long as no process is between its two writes."
  },
  {
   "property": "C42",
   "status": "partial",
   "theorems": [
    "C42_statistics",
    "C42_applied_partial",
    "C42_refuted",
    "C42_list"
   ],
   "note": "The computed mean and std are the population ones for every batch size >= 1. With a numpy std every entry is replaced exactly once by (x-mean)/std. Refuted for a std passed as a list: std[std == 0] = 1 then sets std[0] = 1 (hdf5_tools.py:145). C42_list: what a list does, exactly."
  },
  {
   "property": "C43",
   "status": "partial",
   "theorems": [
    "C43_two_calls_partial",
    "C43_unchanged",
    "C43_refuted"
   ],
   "note": "Refuted: without parameters normalize_hdf5 only records mean and std, the data is never changed. Two calls (compute, then apply) give zero mean and unit deviation (zeros for constant columns)."
  },
  {
   "property": "C47",
   "status": "partial",
   "theorems": [
    "C47_validation_partial",
    "C47_refuted",
    "C47_weighted",
    "C47_weighted_nan",
    "C47_nan"
   ],
   "note": "Proved for regression, 'c' and 'ml'. Refuted for 'wc': a batch without samples of one class makes all errors NaN and the first candidate is installed. C47_weighted and C47_weighted_nan: the exact outcome for 'wc' (the errors depend on the batch size)."
  },
  {
   "property": "C48",
   "status": "proved",
   "theorems": [
    "C48_nbatches"
   ],
   "note": "IEEE binary64 division from the standard library's SpecFloat; the result equals the exact ceiling used by the rest of the model."
  },
  {
   "property": "C49",
   "status": "partial",
   "theorems": [
    "C49_sigm_partial",
    "C49_refuted"
   ],
   "note": "Every element is transformed by exactly one thread; refuted: when the block size does not divide the size, threads of the last block write past the matrix (the kernel has no bounds test)."
  },
  {
   "property": "C52",
   "status": "partial",
   "theorems": [
    "C52_pairs",
    "C52_result",
    "C52_returns_iff",
    "C52_never",
    "C52_terminates_partial",
    "C52_one_sample",
    "C52_refuted",
    "C52_values",
    "C52_metric"
   ],
   "note": "Pairs, centres and widths proved for all random streams. If the stream reaches 1/2 infinitely often, rbf_param returns if and only if some measured pair differs (C52_returns_iff); refuted for equal samples: never returns. C52_values: the widths returned, exactly, with the metric named by kind."
  },
  {
   "property": "C54",
   "status": "proved",
   "theorems": [
    "C54_vector",
    "C54_matrix",
    "C54_shape"
   ],
   "note": "Element types and compression are not modelled."
  },
  {
   "property": "C56",
   "status": "partial",
   "theorems": [
    "C56_text",
    "C56_compressed_partial",
    "C56_ragged",
    "C56_refuted",
    "C56_one_line",
    "C56_ragged_compressed"
   ],
   "note": "Equal for two or more lines; refuted for one line: np.loadtxt drops the dimension, a row becomes a column and a single number fails. C56_one_line: the exact outcome for one line."
  },
  {
   "property": "C57",
   "status": "proved",
   "theorems": [
    "C57_same_model"
   ],
   "note": ""
  },
  {
   "property": "C58",
   "status": "proved",
   "theorems": [
    "C58_outputs_independent"
   ],
   "note": ""
  },
  {
   "property": "C59",
   "status": "proved",
   "theorems": [
    "C59_linear"
   ],
   "note": ""
  },
  {
   "property": "C60",
   "status": "proved",
   "theorems": [
    "C60_neuron_order"
   ],
   "note": "Neurons given with explicit weights; random weights are drawn by numpy."
  },
  {
   "property": "C61",
   "status": "proved",
   "theorems": [
    "C61_weights_are_repetitions"
   ],
   "note": ""
  },
  {
   "property": "C62",
   "status": "proved",
   "theorems": [
    "C62_norm",
    "C62_weighted"
   ],
   "note": "C62_weighted: the same for class weights, with squared errors weighted."
  },
  {
   "property": "C63",
   "status": "proved",
   "theorems": [
    "C63_more_neurons"
   ],
   "note": ""
  },
  {
   "property": "C64",
   "status": "proved",
   "theorems": [
    "C64_no_worse_than_zero"
   ],
   "note": ""
  },
  {
   "property": "C65",
   "status": "proved",
   "theorems": [
    "C65_few_evaluations",
    "C34_validation",
    "C34_loo",
    "C34_cv"
   ],
   "note": "The C34 theorems give the bound for the sizes tried in a training run (definition selects)."
  },
  {
   "property": "C66",
   "status": "partial",
   "theorems": [
    "C66_refuted",
    "C66_near_partial",
    "C34_validation",
    "C34_loo",
    "C34_cv"
   ],
   "note": "Refuted: training selects 4 neurons where 3 is best. The chosen size is within 4*log2(L) of the best one; the C34 theorems say so for training runs."
  },
  {
   "property": "C67",
   "status": "proved",
   "theorems": [
    "C67_prefix",
    "C67_prefix2"
   ],
   "note": ""
  },
  {
   "property": "C68",
   "status": "proved",
   "theorems": [
    "C68_first_choice",
    "C68_first_choice2"
   ],
   "note": ""
  },
  {
   "property": "C69",
   "status": "proved",
   "theorems": [
    "C69_accepts",
    "C69_attributes",
    "C69_default_norm"
   ],
   "note": "Argument types (Integral, float) are not modelled: the model takes numbers of the right type."
  },
  {
   "property": "C70",
   "status": "partial",
   "theorems": [
    "C70_precision_partial",
    "C70_refuted"
   ],
   "note": "Refuted: 'Single' is taken as double, only 'double' is compared in lower case. The partial theorem characterises the strings exactly."
  },
  {
   "property": "C71",
   "status": "proved",
   "theorems": [
    "C71_linear",
    "C71_rbf",
    "C71_scaled"
   ],
   "note": ""
  },
  {
   "property": "C72",
   "status": "proved",
   "theorems": [
    "C72_once",
    "C72_weighted"
   ],
   "note": "C72_weighted: with class weights, of the rows multiplied by the square root of the weight of their class. sum_of is an inductive relation: any order and bracketing."
  },
  {
   "property": "C73",
   "status": "proved",
   "theorems": [
    "C73_accumulated",
    "C73_splits",
    "C73_formats",
    "C73_weighted",
    "C73_root"
   ],
   "note": "C73_weighted with C73_root covers class weights: error of the scaled rows, then of the sums of scaled rows. Fused multiply-add is not covered: every product is rounded before it is added."
  },
  {
   "property": "C74",
   "status": "proved",
   "theorems": [
    "C74_predict"
   ],
   "note": "Relative to the computed hidden outputs: exp and tanh of the math library are parameters."
  },
  {
   "property": "C75",
   "status": "proved",
   "theorems": [
    "C75_elm",
    "C75_hpelm"
   ],
   "note": "Regression models; summation order as in the model (any order gives the same bound by sum_of_bound)."
  },
  {
   "property": "C76",
   "status": "proved",
   "theorems": [
    "C76_train",
    "C76_hpelm"
   ],
   "note": "Equality of the whole model state after a successful run; equality of the exception otherwise."
  },
  {
   "property": "C77",
   "status": "proved",
   "theorems": [
    "C77_order"
   ],
   "note": "Exact arithmetic (with rounding see C73). HPELM training is the same by C57."
  },
  {
   "property": "C78",
   "status": "proved",
   "theorems": [
    "C78_elm",
    "C78_hpelm",
    "C78_weighted",
    "C78_order",
    "C78_order_weighted",
    "C78_order_hpelm"
   ],
   "note": "Weighted classification: ELM.error; HPELM.error agrees when every class occurs (C19)."
  },
  {
   "property": "C79",
   "status": "partial",
   "theorems": [
    "C79_sizes_partial",
    "C79_rounded",
    "C79_refuted",
    "C79_binary64_refuted"
   ],
   "note": "Proved for at least 3 neurons and steps >= 2 in exact arithmetic. Refuted: a model with fewer than 3 neurons reports size 3; with correctly rounded binary64 a model with 10 neurons reports size 11. With any small rounding error the excess is at most one (C79_rounded)."
  },
  {
   "property": "C80",
   "status": "proved",
   "theorems": [
    "C80_no_selection"
   ],
   "note": ""
  },
  {
   "property": "C81",
   "status": "proved",
   "theorems": [
    "C81_source",
    "C81_source_predict",
    "C81_source_error",
    "C81_refuses",
    "C81_refuses_predict",
    "C81_refuses_error",
    "C81_refuses_corr"
   ],
   "note": ""
  },
  {
   "property": "C82",
   "status": "partial",
   "theorems": [
    "C82_elm_partial",
    "C82_plain_partial",
    "C82_hpelm",
    "C82_files",
    "C82_refuted",
    "C82_lost_refuted"
   ],
   "note": "Proved for HPELM (which checks its data) and for ELM.add_data when X and T have equally many rows and T has the right width. Refuted: ELM.add_data does not check T; with fewer rows, or another number of columns, HH is updated, ValueError is raised and HT is not updated, so later solutions are wrong. HPELM.add_data with a missing fHH and a wrong fHT creates fHH and loses the data in memory."
  },
  {
   "property": "C83",
   "status": "proved",
   "theorems": [
    "C83_energy",
    "C83_stability",
    "C83_weighted"
   ],
   "note": "C83_weighted: the balance with class weights. C83_stability is without class weights."
  },
  {
   "property": "C84",
   "status": "proved",
   "theorems": [
    "C84_repeated"
   ],
   "note": "Training without class weights."
  },
  {
   "property": "C85",
   "status": "partial",
   "theorems": [
    "C85_open_files",
    "C85_blocked",
    "C85_train_partial",
    "C85_predict_partial",
    "C85_project_partial",
    "C85_error_partial",
    "C85_validation_partial",
    "C85_refuted"
   ],
   "note": "Refuted: every data file stays open until the model is deleted, so predict into a file whose error was computed raises ValueError, as does normalize_hdf5 of training data; a failing predict leaves its output open for ever. Proved: exactly which files stay open, that such a file can never be written, and that otherwise names behave as contents. Asynchronous calls with an array are left out of the histories (they close files of other calls, C25)."
  },
  {
   "property": "C86",
   "status": "proved",
   "theorems": [
    "C86_only_outputs",
    "C86_same_call",
    "C86_later"
   ],
   "note": "Relies on PyTables refusing to open for writing a file that is open for reading (Files.compat)."
  },
  {
   "property": "C87",
   "status": "partial",
   "theorems": [
    "C87_add_data_partial",
    "C87_solve_corr",
    "C87_same_name",
    "C87_same_name_refuted"
   ],
   "note": "Proved for two different names that the model has not read as data. One name for both is refused unless the number of neurons equals the number of outputs; then both sums go into the one file (refuted)."
  },
  {
   "property": "C88",
   "status": "proved",
   "theorems": [
    "C88_format",
    "C88_determines"
   ],
   "note": "Without ufunc neurons. A model without neurons prints 'Hidden layer neurons' without the colon: s[:-2] cuts it off."
  },
  {
   "property": "C89",
   "status": "partial",
   "theorems": [
    "C89_documented",
    "C89_last",
    "C89_quiet",
    "C89_async_partial",
    "C89_async_last",
    "C89_async_refuted"
   ],
   "note": "Proved for add_data, predict, project and validation_corr. Refuted for the asynchronous calls: their loop has nb+1 iterations, the last report says batch nb+1 of nb and shows a negative time as 0:59:58 or the like. For clocks that do not go back; Example C89_clock_back shows a wrong eta otherwise. Division of times is exact (Python: binary64)."
  },
  {
   "property": "C90",
   "status": "proved",
   "theorems": [
    "C90_certified",
    "C90_approximate",
    "C90_rounded"
   ],
   "note": "C90_rounded covers rounding in the accumulation of HH and HT, for any result of the solver."
  },
  {
   "property": "C91",
   "status": "proved",
   "theorems": [
    "C91_exact_targets"
   ],
   "note": ""
  },
  {
   "property": "C92",
   "status": "proved",
   "theorems": [
    "C92_output_maps"
   ],
   "note": ""
  },
  {
   "property": "C93",
   "status": "proved",
   "theorems": [
    "C93_neurons_twice"
   ],
   "note": ""
  },
  {
   "property": "C94",
   "status": "proved",
   "theorems": [
    "C94_set_B",
    "C94_set_corr",
    "C94_without_neurons",
    "C94_add_neurons",
    "C94_add_neurons_default",
    "C94_only_W",
    "C94_only_B"
   ],
   "note": ""
  },
  {
   "property": "C95",
   "status": "proved",
   "theorems": [
    "C95_structure",
    "C95_wider",
    "C95_narrower",
    "C95_predictions"
   ],
   "note": "astype is modelled as rounding to nearest, ties to even (Cast.v). C95_predictions: exact arithmetic apart from the conversion, neurons lin, sigm, tanh. pickle is taken as faithful."
  },
  {
   "property": "C96",
   "status": "partial",
   "theorems": [
    "C96_validation_given_partial",
    "C96_validation_auto_partial",
    "C96_loo_absent",
    "C96_loo_auto_partial",
    "C96_loo_given_partial",
    "C96_cv_given_partial",
    "C96_cv_auto",
    "C96_refuted"
   ],
   "note": "False: 'CV' without given weights always raises TypeError; 'V' and 'LOO' with automatic weights raise if a class has no sample; 'LOO' can divide 0 by 0. Proved: 'V' works exactly if the given weights do not sum to 0, or every class occurs; 'CV' with given weights exactly if they do not sum to 0 (random or mrsr2 ranking). 'LOO' with automatic weights works exactly if every class occurs; with given weights it works if none is below 1. Not proved: 'LOO' with a given weight below 1."
  },
  {
   "property": "C97",
   "status": "proved",
   "theorems": [
    "C97_batch",
    "C97_hpelm_batch",
    "C97_ignored",
    "C97_hpelm_ignored",
    "C97_kmax",
    "C97_training"
   ],
   "note": "C97_training is over the reals and for calls without structure selection; the other theorems hold for every arithmetic. 'R' together with 'WC' is left out of C97_training (see C44)."
  },
  {
   "property": "C98",
   "status": "proved",
   "theorems": [
    "C98_scaled",
    "C98_zero"
   ],
   "note": "Over the reals, norm > 0; for calls of train without structure selection."
  },
  {
   "property": "C99",
   "status": "partial",
   "theorems": [
    "C99_selection",
    "C99_training_error",
    "C99_refuted"
   ],
   "note": "True for regression (C40_loo, C99_selection). False for classification: the training errors are divided by (1-leverage)^2; the value is 0 whenever the training samples are classified right, whatever happens without them."
  },
  {
   "property": "C100",
   "status": "proved",
   "theorems": [
    "C100_path"
   ],
   "note": "Exact arithmetic (reals), linearly independent columns of the hidden layer."
  },
  {
   "property": "C101",
   "status": "partial",
   "theorems": [
    "C101_choice_partial",
    "C101_path_partial",
    "C101_equal_partial",
    "C101_first_partial",
    "C101_refuted"
   ],
   "note": "False: mrsr2 moves towards the fit that already includes the new neuron, so the new neuron need not be as correlated as the others; from then on it compares with the new neuron only. Proved: the rule by which it chooses neurons and steps, if brentq returns exact roots (C101_choice_partial); the path it follows; correlations of all chosen neurons shrink by one factor; the first neuron is the same."
  },
  {
   "property": "C102",
   "status": "proved",
   "theorems": [
    "C102_training",
    "C102_failure",
    "C102_error",
    "C102_ranking"
   ],
   "note": "Over the reals. Hypothesis unit_free: numpy lstsq and scipy lu_solve on singular matrices are homogeneous in the right-hand side, and the root found by brentq does not depend on the unit. Not for 'WC', 'ML' (compare targets with 1 and 0.5)."
  },
  {
   "property": "C103",
   "status": "proved",
   "theorems": [
    "C103_train",
    "C103_hpelm",
    "C103_calls"
   ],
   "note": "For every arithmetic. After a failed call the two models can differ in the old output weights only."
  },
  {
   "property": "C104",
   "status": "proved",
   "theorems": [
    "C104_order",
    "C104_cv",
    "C104_ranking",
    "C104_cv_across"
   ],
   "note": "Over the reals (with rounding see C73). The first theorem assumes targets that add_data accepts (weighting). C104_cv_across: a concrete case where exchanging samples of different parts changes the error that 'CV' returns."
  },
  {
   "property": "C105",
   "status": "proved",
   "theorems": [
    "C105_order",
    "C105_shift",
    "C105_units",
    "C105_constant",
    "C105_neurons"
   ],
   "note": "Over the reals, for ELM. The changes of the neurons (reorder, shift, rescale, extend) are instances of one function move that changes the weights and the bias of each neuron."
  },
  {
   "property": "C106",
   "status": "proved",
   "theorems": [
    "C106_copies",
    "C106_known",
    "C106_added"
   ],
   "note": "Over the reals, training without class weights and without structure selection."
  },
  {
   "property": "C107",
   "status": "proved",
   "theorems": [
    "C107_neuron",
    "C107_network",
    "C107_doubles"
   ],
   "note": "Accuracy of exp and tanh is a parameter v; C107_doubles: rounding the exact value to binary64 gives v = 2^-52. Neurons lin, sigm, tanh; the given weights are those stored in the model, however they were trained."
  },
  {
   "property": "C108",
   "status": "partial",
   "theorems": [
    "C108_add_data_partial",
    "C108_predict_partial",
    "C108_error_partial",
    "C108_train",
    "C108_all",
    "C108_last",
    "C108_refuted"
   ],
   "note": "True when icount < m (add_data, predict, error). False otherwise: add_data with istart=-m and no icount uses most of the last m samples and then most of all samples, depending on the batch size (C108_all; right only if the data fit into one batch); with icount=m it uses no sample of the last batch (C108_last, exact); predict raises ValueError. HPELM.train takes a negative istart as 0 (C108_train). C108_all and C108_last are over the reals, without class weights and files."
  },
  {
   "property": "C109",
   "status": "proved",
   "theorems": [
    "C109_neuron",
    "C109_network",
    "C109_hpelm",
    "C109_formats"
   ],
   "note": "Accuracy of exp and tanh is a parameter v as in C107; C109_formats: IEEE arithmetic of every precision has the exact sign changes that are assumed. rbf_linf is not covered (the comparison of floats is not analysed)."
  }
 ]
}