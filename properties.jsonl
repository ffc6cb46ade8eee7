{"id": "C01", "title": "Batch splitting covers every sample exactly once", "statement": "ELM.add_data(X, T) feeds the rows of X and T to the solver in consecutive aligned chunks whose concatenation is exactly X (resp. T), in order, in ceil(N/batch) chunks none of which is longer than the batch size. An empty data set is rejected.", "quantifier": "every number of samples N >= 1 and every batch size >= 1", "why_tests_cant": "The chunk boundaries depend on N, the batch size and their remainder; tests sample a few pairs.", "anchors": ["hpelm/elm.py:ELM.add_data"]}
{"id": "C02", "title": "Accumulated training matrices do not depend on the batch size", "statement": "After training data (X, T) has been fed to a freshly reset model (no class weights), the correlation matrices returned by the model are exactly norm*I + H'H and H'T, where H is the hidden-layer projection of X; the batch size has no influence (exact arithmetic).", "quantifier": "every data set, every neuron configuration, every batch size, both the default and the 'basic' solver", "why_tests_cant": "Equality must hold for all batch sizes and all data at once; numeric tests compare two batch sizes on one data set up to tolerance.", "anchors": ["hpelm/elm.py:ELM.add_data", "hpelm/nnets/slfn.py:SLFN.add_batch", "hpelm/nnets/slfn_python.py:SLFNPython.add_batch"]}
{"id": "C03", "title": "Incremental training accumulates", "statement": "Calling add_data several times with parts of a data set yields the same correlation matrices as one call with the whole data set, whatever the way it is cut into parts, whatever batch size each call used, and in whatever order the parts are supplied.", "quantifier": "every sequence of add_data calls on every data set", "why_tests_cant": "Quantifies over all histories of calls.", "anchors": ["hpelm/elm.py:ELM.add_data", "hpelm/nnets/slfn.py:SLFN.add_batch"]}
{"id": "C04", "title": "Class weights are applied per sample", "statement": "With weighted classification and one-hot targets, each sample contributes to the correlation matrices with the weight of its own class, i.e. H'WH and H'WT with W the diagonal of class weights; if no weights were given they are (number of samples)/(number of samples in the class).", "quantifier": "every one-hot target matrix, every non-negative weight vector, every batch size", "why_tests_cant": "Alignment of weights to samples must hold for every batch cut and every label order.", "anchors": ["hpelm/elm.py:ELM.add_data", "hpelm/nnets/slfn.py:SLFN.add_batch"]}
{"id": "C05", "title": "Targets that are not one-hot are rejected by weighted classification", "statement": "Weighted classification either weights every sample of a batch with the weight of its class or raises an error; it never silently applies a weight of another sample.", "quantifier": "every target matrix (including rows with zero or several ones) and batch size", "why_tests_cant": "The failure needs a coincidence between the number of ones in a batch and the number of rows; tests never build it.", "anchors": ["hpelm/elm.py:ELM.add_data", "hpelm/nnets/slfn.py:SLFN.add_batch"]}
{"id": "C06", "title": "All solvers accumulate the same matrices", "statement": "For the same neurons and the same history of training batches, the default CPU solver, the 'basic' solver and the GPU solver report the same correlation matrices through get_corr, and these are symmetric.", "quantifier": "every history of batches (weighted or not), every neuron configuration", "why_tests_cant": "The default solver stores only a triangle and the GPU solver a full or half matrix; equality is needed for every history.", "anchors": ["hpelm/nnets/slfn.py:SLFN.get_corr", "hpelm/nnets/slfn_python.py:SLFNPython.get_corr", "hpelm/nnets/slfn_skcuda.py:SLFNSkCUDA.get_corr"]}
{"id": "C07", "title": "set_corr / get_corr round trip", "statement": "Correlation matrices installed with set_corr are what get_corr returns afterwards (for every correctly shaped HT and symmetric HH), on every solver.", "quantifier": "every symmetric HH and every HT of the right shape, every solver", "why_tests_cant": "Round-trip law over all matrices.", "anchors": ["hpelm/nnets/slfn.py:SLFN.set_corr", "hpelm/nnets/slfn_python.py:SLFNPython.get_corr", "hpelm/nnets/slfn_skcuda.py:SLFNSkCUDA.get_corr"]}
{"id": "C08", "title": "Training returns the ridge-regression optimum", "statement": "After train(X, T) without structure selection and with norm > 0, the output weights B solve (H'H + norm*I) B = H'T, are the only solution, and minimise ||H B - T||^2 + norm*||B||^2 over all weight matrices.", "quantifier": "every data set, every neuron configuration, every norm > 0, every batch size, default and basic solver", "why_tests_cant": "Optimality is a statement about all competing weight matrices.", "anchors": ["hpelm/elm.py:ELM.train", "hpelm/nnets/slfn_python.py:SLFNPython.solve_corr", "hpelm/nnets/slfn.py:SLFN.solve_corr"]}
{"id": "C09", "title": "The rank-deficient fallback solves the same system", "statement": "When the covariance matrix is not positive definite, the default solver falls back to least squares on the same symmetric matrix, so the returned weights are a least-squares solution of HH B = HT.", "quantifier": "every correlation matrix pair, obtained from the model in memory or from correlation files", "why_tests_cant": "Only triggered by singular matrices; the wrong matrix is only visible for particular rank patterns.", "anchors": ["hpelm/nnets/slfn_python.py:SLFNPython.solve_corr", "hpelm/nnets/slfn_skcuda.py:SLFNSkCUDA.solve_corr"]}
{"id": "C10", "title": "Model state stays consistent under every API history", "statement": "After any sequence of API calls, successful or raising, every neuron group has weights of shape inputs x number and a bias vector of length number, neuron types are unique, the reported number of neurons is the sum over the groups, the output weights are absent or of shape neurons x outputs, and the correlation matrices are both absent or of shapes neurons x neurons and neurons x outputs.", "quantifier": "every finite sequence of ELM calls with arbitrary arguments", "why_tests_cant": "Invariant over all call histories including failing calls.", "anchors": ["hpelm/elm.py:ELM", "hpelm/nnets/slfn.py:SLFN"]}
{"id": "C11", "title": "Stale output weights are never used", "statement": "Adding neurons, pruning or creating a model leaves it without output weights and without accumulated data: predict raises until the model is solved again, and solving uses only data supplied after the last change of neurons.", "quantifier": "every call history", "why_tests_cant": "History property.", "anchors": ["hpelm/nnets/slfn.py:SLFN.add_neurons", "hpelm/nnets/slfn.py:SLFN._prune", "hpelm/elm.py:ELM.predict"]}
{"id": "C12", "title": "Adding neurons only appends features", "statement": "After add_neurons succeeds, the hidden representation of any data contains, for every previously present neuron, the same feature column as before, plus one column for each new neuron computed from its own weights and bias; the total count grows by exactly the number added (for 'lin' with default weights, at most the number of inputs).", "quantifier": "every model, neuron type, number, weights and data", "why_tests_cant": "Relation between two projections for all models and data.", "anchors": ["hpelm/elm.py:ELM.add_neurons", "hpelm/nnets/slfn.py:SLFN.add_neurons", "hpelm/nnets/slfn.py:SLFN._project"]}
{"id": "C13", "title": "Pruning keeps exactly the requested neurons", "statement": "Pruning to a list of distinct neuron indices yields a model whose hidden representation of any data consists exactly of the columns with those indices (grouped by neuron type, in the given order within a type), and whose neuron count is the length of the list.", "quantifier": "every model, every list of distinct in-range indices, every data set", "why_tests_cant": "Index arithmetic across neuron groups for all index lists.", "anchors": ["hpelm/nnets/slfn.py:SLFN._prune"]}
{"id": "C14", "title": "Prediction is sample-wise", "statement": "predict maps each sample independently: row i of predict(X) depends only on row i of X, predict of concatenated data is the concatenation of predictions, and it equals the hidden representation times the output weights.", "quantifier": "every trained model and every data set", "why_tests_cant": "Quantifies over all data and splits.", "anchors": ["hpelm/elm.py:ELM.predict", "hpelm/nnets/slfn.py:SLFN._predict"]}
{"id": "C15", "title": "HPELM.predict is ELM.predict on the requested range", "statement": "HPELM.predict(X, istart, icount) returns exactly the rows istart .. min(istart+icount, N)-1 of ELM.predict(X), for every batch size; nothing is skipped or repeated.", "quantifier": "every data set, every 0 <= istart <= N, every icount >= 0 or absent, every batch size >= 1", "why_tests_cant": "Boundary arithmetic over four parameters.", "anchors": ["hpelm/hp_elm.py:HPELM.predict"]}
{"id": "C16", "title": "HPELM.project is ELM.project on the requested range", "statement": "HPELM.project(X, istart, icount) returns exactly the rows istart .. min(istart+icount, N)-1 of ELM.project(X), for every batch size.", "quantifier": "every data set, every 0 <= istart <= N, every icount, every batch size >= 1", "why_tests_cant": "Boundary arithmetic over four parameters; the existing tests only use istart=0.", "anchors": ["hpelm/hp_elm.py:HPELM.project"]}
{"id": "C17", "title": "HPELM training on a range uses exactly that range", "statement": "HPELM.add_data / HPELM.train with istart, icount accumulate exactly the samples istart .. min(istart+icount, N)-1, once each, whatever the batch size; feeding consecutive ranges accumulates the same matrices as feeding all the data.", "quantifier": "every data set, every partition into consecutive ranges, every batch size", "why_tests_cant": "Boundary arithmetic and histories.", "anchors": ["hpelm/hp_elm.py:HPELM.add_data", "hpelm/hp_elm.py:HPELM.train"]}
{"id": "C18", "title": "HPELM.error does not depend on the batch size", "statement": "For regression, classification and multi-label models, HPELM.error on a non-empty range equals the mean error over exactly the samples of that range (MSE / misclassification rate / label error rate) and equals ELM.error on the same rows, for every batch size.", "quantifier": "every pair of target and prediction matrices, every range, every batch size", "why_tests_cant": "The batched mean recombines per-batch means; all sizes must be covered.", "anchors": ["hpelm/hp_elm.py:HPELM._error", "hpelm/elm.py:ELM._error"]}
{"id": "C19", "title": "Weighted classification error agrees between ELM and HPELM", "statement": "For weighted classification HPELM.error equals ELM.error on the same data: the weighted average over classes of the per-class misclassification rate, where a class without samples contributes zero.", "quantifier": "every target/prediction pair, weights, batch size", "why_tests_cant": "Depends on which classes are present in the data.", "anchors": ["hpelm/hp_elm.py:HPELM._error", "hpelm/elm.py:ELM._error"]}
{"id": "C20", "title": "Errors on an empty range are not reported as perfect", "statement": "Computing an error over zero samples is rejected instead of returning a number.", "quantifier": "every model, every empty range", "why_tests_cant": "Edge range not tested.", "anchors": ["hpelm/hp_elm.py:HPELM._error", "hpelm/elm.py:ELM._error"]}
{"id": "C21", "title": "Confusion matrix counts samples", "statement": "For (weighted) classification, entry (i, j) of confusion(T, Y) is the number of samples whose true class is i and predicted class is j, for every batch size; the entries sum to the number of samples, and the misclassification error equals 1 - trace/N.", "quantifier": "every target/prediction pair, every batch size", "why_tests_cant": "Counting over all data and batch cuts.", "anchors": ["hpelm/elm.py:ELM.confusion", "hpelm/elm.py:ELM._error"]}
{"id": "C22", "title": "Multi-label confusion matrix counts label co-occurrences", "statement": "For multi-label models entry (i, j) of confusion(T, Y) is the number of samples having true label i and predicted label j, for every batch size.", "quantifier": "every target/prediction pair, every batch size", "why_tests_cant": "Counting over all data and batch cuts.", "anchors": ["hpelm/elm.py:ELM.confusion"]}
{"id": "C23", "title": "Asynchronous prediction equals synchronous prediction", "statement": "predict_async terminates under every interleaving of the main process, the reader and the writer (no deadlock), and leaves in the output file exactly the matrix that predict computes for the same range.", "quantifier": "every schedule of the three processes, every data set, every range with istart <= N, every batch size", "why_tests_cant": "Quantifies over process schedules.", "anchors": ["hpelm/hp_elm.py:HPELM.predict_async", "hpelm/modules/hdf5_tools.py:_ireader", "hpelm/modules/hdf5_tools.py:_iwriter"]}
{"id": "C24", "title": "Asynchronous training equals synchronous training", "statement": "add_data_async terminates under every interleaving of the main process and the two readers, and accumulates exactly the same matrices as add_data on the same range.", "quantifier": "every schedule of the three processes, every data set, every range with istart <= N, every batch size", "why_tests_cant": "Quantifies over process schedules.", "anchors": ["hpelm/hp_elm.py:HPELM.add_data_async", "hpelm/modules/hdf5_tools.py:_ireader"]}
{"id": "C25", "title": "Asynchronous calls never hang", "statement": "add_data_async / predict_async return or raise for every istart and every kind of data argument.", "quantifier": "every istart, icount, batch size, and data given as file or array", "why_tests_cant": "A hang needs a particular relation between istart, N and the batch size, or a reader that died.", "anchors": ["hpelm/hp_elm.py:HPELM.add_data_async", "hpelm/hp_elm.py:HPELM.predict_async", "hpelm/modules/hdf5_tools.py:_ireader"]}
{"id": "C26", "title": "Parallel add_data to shared files loses nothing", "statement": "When several processes call add_data with the same existing fHH and fHT files, then under every interleaving, once all are done, the files contain the initial matrices plus the sum of all contributions.", "quantifier": "every number of processes, every schedule", "why_tests_cant": "Quantifies over process schedules.", "anchors": ["hpelm/modules/hdf5_tools.py:_write_fHH", "hpelm/hp_elm.py:HPELM.add_data"]}
{"id": "C27", "title": "Parallel creation of the shared files is safe", "statement": "When several processes call add_data with the same fHH and fHT files that do not exist yet, then under every interleaving the final files contain norm*I plus the sum of all contributions.", "quantifier": "every number of processes, every schedule", "why_tests_cant": "Lost updates need one particular interleaving of check and creation.", "anchors": ["hpelm/modules/hdf5_tools.py:_prepare_fHH", "hpelm/modules/hdf5_tools.py:make_hdf5"]}
{"id": "C28", "title": "Crash consistency of the shared correlation files", "statement": "If a process dies at any point of add_data with shared files, then the two files still describe the same set of contributions (so solving from them is a ridge solution of some subset of the data).", "quantifier": "every crash point of every process, every schedule", "why_tests_cant": "Quantifies over crash points.", "anchors": ["hpelm/modules/hdf5_tools.py:_write_fHH"]}
{"id": "C29", "title": "Solving from files equals training in memory", "statement": "Storing the correlation matrices of consecutive ranges that cover the data in files and then calling solve_corr on the files yields the same output weights as train on the whole data.", "quantifier": "every data set, every cut into ranges, every batch size, norm > 0", "why_tests_cant": "Relates two different call histories for all data.", "anchors": ["hpelm/hp_elm.py:HPELM.add_data", "hpelm/hp_elm.py:HPELM.solve_corr", "hpelm/modules/hdf5_tools.py:_prepare_fHH"]}
{"id": "C30", "title": "Storing to files does not alter the model in memory", "statement": "After add_data with fHH and fHT the correlation matrices held by the model are the same as after add_data without files (norm*I + H'H, H'T), on every solver.", "quantifier": "every data set, every solver", "why_tests_cant": "Aliasing between returned and stored matrices depends on the solver.", "anchors": ["hpelm/hp_elm.py:HPELM.add_data", "hpelm/nnets/slfn.py:SLFN.get_corr"]}
{"id": "C31", "title": "Save / load round trip", "statement": "Loading a saved model into a new default ELM gives a model with the same inputs, outputs, neurons, norm, classification type, class weights and output weights; its predictions, projections and errors coincide with the original for all data, and it can be trained further.", "quantifier": "every model reachable by API calls, every data set", "why_tests_cant": "Round-trip law over all reachable models.", "anchors": ["hpelm/elm.py:ELM.save", "hpelm/elm.py:ELM._get_output_format", "hpelm/elm.py:ELM._update_from_output"]}
{"id": "C32", "title": "Load replaces the previous model", "statement": "load makes the model equal to the saved one regardless of the previous contents of the object it is loaded into and of its accelerator.", "quantifier": "every pair of models, every accelerator", "why_tests_cant": "Depends on the previous history of the target object.", "anchors": ["hpelm/elm.py:ELM._update_from_output"]}
{"id": "C33", "title": "Structure selection terminates and returns a size in range", "statement": "The search for the number of neurons used by 'V', 'CV' and 'LOO' terminates for every error landscape and selects a size between its lower limit (1, or 3 for CV) and the number of ranked neurons.", "quantifier": "every number of neurons, every error function", "why_tests_cant": "The interval points can leave the interval; termination is a statement about all landscapes.", "anchors": ["hpelm/mss_v.py:train_v", "hpelm/mss_cv.py:train_cv", "hpelm/mss_loo.py:train_loo"]}
{"id": "C34", "title": "Structure selection returns the best evaluated size", "statement": "The selected size has the smallest penalised error among all sizes that were evaluated, which include the smallest and the full model; in particular it is never worse than the full model.", "quantifier": "every number of neurons, every non-negative error function", "why_tests_cant": "Statement about all landscapes and all evaluated points.", "anchors": ["hpelm/mss_v.py:train_v", "hpelm/mss_cv.py:train_cv", "hpelm/mss_loo.py:train_loo"]}
{"id": "C35", "title": "Cross-validation works for small models", "statement": "train(..., 'CV', k) works for every model with at least one neuron, like 'V' and 'LOO' do.", "quantifier": "every neuron count", "why_tests_cant": "Edge sizes.", "anchors": ["hpelm/mss_cv.py:train_cv"]}
{"id": "C36", "title": "Cross-validation folds are disjoint and exhaustive", "statement": "For k-fold cross-validation every sample is in exactly one of the k parts; in each repetition training, validation and test samples are disjoint and cover all samples; over the k repetitions every part is used exactly once for validation and exactly once for test.", "quantifier": "every N and every k >= 3", "why_tests_cant": "Index arithmetic modulo k for all N, k.", "anchors": ["hpelm/mss_cv.py:train_cv"]}
{"id": "C37", "title": "Cross-validation reports the error of the selected model", "statement": "The value returned by train(..., 'CV') is the test error of the selected number of neurons.", "quantifier": "every data set and model", "why_tests_cant": "Value-level property over all data.", "anchors": ["hpelm/mss_cv.py:train_cv"]}
{"id": "C38", "title": "The error recorded at the neuron limit is the error of the limited model", "statement": "With 'OP' and kmax the error used for the model of kmax neurons is the validation error of that model.", "quantifier": "every kmax and model", "why_tests_cant": "Only visible when kmax is smaller than the number of neurons.", "anchors": ["hpelm/mss_v.py:train_v", "hpelm/mss_loo.py:train_loo", "hpelm/elm.py:ELM._ranking"]}
{"id": "C39", "title": "After structure selection the model is the ridge solution on the selected neurons", "statement": "After train with 'V', 'CV' or 'LOO' the model consists of the selected neurons and its output weights are the ridge solution of those neurons on the whole training set, using the class weights in weighted classification.", "quantifier": "every data set, every ranking, every landscape", "why_tests_cant": "Composite of selection, pruning and retraining over all data.", "anchors": ["hpelm/mss_v.py:train_v", "hpelm/mss_cv.py:train_cv", "hpelm/mss_loo.py:train_loo"]}
{"id": "C40", "title": "The LOO error is the true leave-one-out error", "statement": "For regression, the quantity used by 'LOO' equals the mean squared error obtained by removing each sample in turn, re-solving the ridge problem on the remaining samples and predicting the removed one.", "quantifier": "every data set, neuron subset and norm > 0", "why_tests_cant": "Algebraic identity (PRESS) over all matrices.", "anchors": ["hpelm/mss_loo.py:train_loo", "hpelm/elm.py:ELM._error"]}
{"id": "C41", "title": "The OP ranking lists distinct existing neurons", "statement": "mrsr and mrsr2 return duplicate-free lists of existing column indices, of the requested length, for every data; a ranking of all neurons is a permutation.", "quantifier": "every data set, every requested length between 1 and the number of neurons", "why_tests_cant": "Must hold whatever the numerical values select.", "anchors": ["hpelm/modules/mrsr.py:mrsr", "hpelm/modules/mrsr2.py:mrsr2", "hpelm/elm.py:ELM._ranking"]}
{"id": "C42", "title": "normalize_hdf5 statistics do not depend on the batch size", "statement": "The mean and standard deviation computed by normalize_hdf5 are the population mean and standard deviation of each column for every batch size, and the normalisation with given mean and std replaces every entry x by (x-mean)/std (std 0 treated as 1), each exactly once.", "quantifier": "every data matrix and every batch size >= 1", "why_tests_cant": "Recombination of per-batch means for all sizes.", "anchors": ["hpelm/modules/hdf5_tools.py:normalize_hdf5"]}
{"id": "C43", "title": "normalize_hdf5 normalises the file", "statement": "After normalize_hdf5(file) without parameters the data in the file has zero mean and unit deviation, and calling it again changes nothing.", "quantifier": "every data file", "why_tests_cant": "Effect on file contents over all data and histories.", "anchors": ["hpelm/modules/hdf5_tools.py:normalize_hdf5"]}
{"id": "C44", "title": "Training arguments are interpreted consistently", "statement": "train accepts at most one of V/CV/LOO and at most one of C/WC/ML/MC, independent of letter case and order, the resulting task type is the one requested (regression if none), and the structure selection requested is the one performed.", "quantifier": "every list of string arguments in any letter case", "why_tests_cant": "All argument lists.", "anchors": ["hpelm/elm.py:ELM._train_parse_args", "hpelm/elm.py:ELM.train"]}
{"id": "C45", "title": "The task type given to the constructor is honoured in any letter case", "statement": "A model created with classification 'c', 'wc', 'ml' or 'mc' in any letter case uses that task type in error() and confusion(); 'mc' means 'ml'; any other value means regression.", "quantifier": "every string", "why_tests_cant": "All strings.", "anchors": ["hpelm/elm.py:ELM.__init__"]}
{"id": "C46", "title": "A rejected call leaves the model usable and unchanged", "statement": "If train or add_neurons raises because of its arguments, later calls behave as if it had not been made.", "quantifier": "every model state and every rejected call", "why_tests_cant": "History property.", "anchors": ["hpelm/elm.py:ELM._train_parse_args", "hpelm/elm.py:ELM.add_neurons"]}
{"id": "C47", "title": "validation_corr installs the best evaluated model", "statement": "validation_corr computes for each tried number of neurons the validation error of the model solved on the leading neurons, independently of the batch size, and leaves the model with the smallest error installed: its predictions are those of that candidate.", "quantifier": "every validation set, candidate list, batch size", "why_tests_cant": "Composite over all data and batch cuts.", "anchors": ["hpelm/hp_elm.py:HPELM.validation_corr"]}
{"id": "C48", "title": "The number of batches is computed exactly", "statement": "The floating-point expression int(ceil(float(N)/batch)) equals the exact ceiling of N/batch, so no batch is lost.", "quantifier": "every 0 <= N < 2^53 and 1 <= batch < 2^53", "why_tests_cant": "Rounding behaviour for all integer pairs.", "anchors": ["hpelm/elm.py:ELM.add_data", "hpelm/hp_elm.py:HPELM.add_data"]}
{"id": "C49", "title": "GPU sigmoid kernel touches every element once and nothing else", "statement": "The launch configuration of the GPU sigmoid kernel makes every element of the matrix be transformed by exactly one thread and no thread writes outside the matrix.", "quantifier": "every matrix size and block size", "why_tests_cant": "All sizes; out-of-bounds writes are silent.", "anchors": ["hpelm/nnets/slfn_skcuda.py:SLFNSkCUDA._dev_sigm"]}
{"id": "C50", "title": "Neuron outputs stay in the documented ranges", "statement": "sigm outputs lie in (0,1), tanh outputs in (-1,1), and RBF outputs with positive width in (0,1], equal to 1 exactly at the centre.", "quantifier": "every input, weights, bias", "why_tests_cant": "All real inputs.", "anchors": ["hpelm/nnets/slfn.py:SLFN.__init__"]}
{"id": "C51", "title": "sigm is the logistic function", "statement": "A 'sigm' neuron with weights w and bias b outputs 1/(1+exp(-(x.w+b))).", "quantifier": "every input, weights, bias", "why_tests_cant": "All real inputs.", "anchors": ["hpelm/nnets/slfn.py:SLFN.__init__"]}
{"id": "C52", "title": "rbf_param draws valid positive widths and terminates", "statement": "rbf_param only measures distances between two different existing samples, returns centres that are samples and strictly positive widths, and terminates.", "quantifier": "every data set with at least two samples, every random stream", "why_tests_cant": "All random streams; termination.", "anchors": ["hpelm/modules/rbf_param.py:rbf_param"]}
{"id": "C53", "title": "Every accepted neuron type is usable", "statement": "A neuron type accepted by add_neurons (standard name or numpy ufunc) can be used to project data.", "quantifier": "every accepted neuron type", "why_tests_cant": "All types, including custom ufuncs.", "anchors": ["hpelm/elm.py:ELM.add_neurons", "hpelm/nnets/slfn.py:SLFN._project"]}
{"id": "C54", "title": "make_hdf5 stores the data unchanged", "statement": "A matrix written by make_hdf5 is read back unchanged (a vector as a single column), a shape tuple yields a zero matrix of that shape, and the stored file is marked as not normalised.", "quantifier": "every 1-D or 2-D numeric array and every shape", "why_tests_cant": "Round trip over all arrays.", "anchors": ["hpelm/modules/hdf5_tools.py:make_hdf5"]}
{"id": "C55", "title": "Data arguments are validated before use", "statement": "project, predict, train, error and confusion accept a data array iff it is numeric, 1- or 2-dimensional, with the model's number of columns (1-D counting as one column) and, for train, the same number of samples in X and T; otherwise they raise before any computation.", "quantifier": "every array kind and shape", "why_tests_cant": "All shapes.", "anchors": ["hpelm/elm.py:ELM._checkdata"]}
{"id": "C56", "title": "make_hdf5 stores compressed and plain text files alike", "statement": "The same rows of numbers written as a plain text file and as a compressed (.gz, .bz2) text file give the same stored matrix: one row per line, and files whose lines have different lengths are rejected.", "quantifier": "every non-empty list of lines of numbers", "why_tests_cant": "All shapes, including the degenerate ones numpy squeezes.", "anchors": ["hpelm/modules/hdf5_tools.py:make_hdf5"]}
{"id": "C57", "title": "Out-of-core training equals in-memory training", "statement": "HPELM.train on files or arrays, with any istart/icount range, leaves exactly the output weights and neurons that ELM.train gives on the same range of samples with the same options.", "quantifier": "every model, data source, range and batch size (no class weights)", "why_tests_cant": "All data, all ranges and all batch sizes.", "anchors": ["hpelm/hp_elm.py:HPELM.train", "hpelm/elm.py:ELM.train"]}
{"id": "C58", "title": "Outputs are trained independently", "statement": "Training on several target columns and keeping some columns of the predictions gives the same predictions as training on those target columns only.", "quantifier": "every data set, every selection of outputs", "why_tests_cant": "All data and all selections.", "anchors": ["hpelm/elm.py:ELM.train", "hpelm/elm.py:ELM.predict"]}
{"id": "C59", "title": "Predictions are linear in the targets", "statement": "With fixed inputs and neurons, the model trained on the targets a*T1 + b*T2 predicts a*Y1 + b*Y2, where Y1, Y2 are the predictions of the models trained on T1 and T2.", "quantifier": "every data set, all a and b, every new input", "why_tests_cant": "All data; exact identity.", "anchors": ["hpelm/elm.py:ELM.train", "hpelm/elm.py:ELM.predict"]}
{"id": "C60", "title": "The order of add_neurons calls does not matter", "statement": "Adding the same groups of neurons in another order gives a model that, after training on the same data, makes the same predictions.", "quantifier": "every list of add_neurons calls and every permutation of it, including calls merging into an existing type", "why_tests_cant": "All permutations and data.", "anchors": ["hpelm/elm.py:ELM.add_neurons", "hpelm/nnets/slfn.py:SLFN.add_neurons"]}
{"id": "C61", "title": "Integer class weights count repetitions", "statement": "Weighted classification with integer weights gives the same output weights as unweighted training where each sample is repeated as often as the weight of its class.", "quantifier": "every data set with one class per sample, every list of natural weights including 0", "why_tests_cant": "All data and all weights.", "anchors": ["hpelm/elm.py:ELM.train", "hpelm/elm.py:ELM.add_data"]}
{"id": "C62", "title": "A larger norm shrinks the weights and fits less closely", "statement": "Raising the L2 regularisation norm never increases the sum of squares of the output weights and never decreases the sum of squared training errors.", "quantifier": "every data set and all norms 0 < n1 <= n2", "why_tests_cant": "Inequality over all data.", "anchors": ["hpelm/nnets/slfn.py:SLFN.solve_corr"]}
{"id": "C63", "title": "More neurons never worsen the training objective", "statement": "After any successful add_neurons call, training reaches a value of (squared training error + norm * squared weights) that is not larger than before.", "quantifier": "every model, every group of neurons, every data set", "why_tests_cant": "Inequality over all data and neurons.", "anchors": ["hpelm/elm.py:ELM.add_neurons", "hpelm/elm.py:ELM.train"]}
{"id": "C64", "title": "The fit is never worse than predicting zero", "statement": "The squared training error plus norm times the squared output weights of a trained model is at most the sum of squares of the targets.", "quantifier": "every trained model", "why_tests_cant": "Inequality over all data.", "anchors": ["hpelm/elm.py:ELM.train"]}
{"id": "C65", "title": "Structure selection evaluates few model sizes", "statement": "The search over the number of neurons evaluates at most 6*log2(L)+5 of the L sizes; the outcome depends on no other size.", "quantifier": "every error function, every range of sizes", "why_tests_cant": "All error functions and sizes.", "anchors": ["hpelm/mss_v.py:train_v", "hpelm/mss_loo.py:train_loo", "hpelm/mss_cv.py:train_cv"]}
{"id": "C66", "title": "Structure selection finds the best size of a falling and rising error", "statement": "When the error falls strictly up to some number of neurons and rises strictly afterwards, structure selection chooses that number.", "quantifier": "every such error curve", "why_tests_cant": "All curves.", "anchors": ["hpelm/mss_v.py:train_v", "hpelm/mss_loo.py:train_loo", "hpelm/mss_cv.py:train_cv"]}
{"id": "C67", "title": "A shorter ranking is a prefix of a longer one", "statement": "Asking the MRSR rankings for fewer neurons gives the beginning of the ranking obtained when asking for more.", "quantifier": "every data set and all k1 <= k2", "why_tests_cant": "All data.", "anchors": ["hpelm/modules/mrsr.py:mrsr", "hpelm/modules/mrsr2.py:mrsr2"]}
{"id": "C68", "title": "The ranking starts with the most correlated neuron", "statement": "The first neuron of the ranking has the largest total correlation with the targets (sum of absolute values for mrsr, with the smallest index among equals; Euclidean norm for mrsr2).", "quantifier": "every data set", "why_tests_cant": "All data.", "anchors": ["hpelm/modules/mrsr.py:mrsr", "hpelm/modules/mrsr2.py:mrsr2"]}
{"id": "C69", "title": "The constructor checks its arguments and stores them", "statement": "ELM(...) succeeds exactly when batch is positive and w, if given, has one weight per output; the object then has the given sizes, batch, class weights, solver and norm, and no neurons. Without norm, the regularisation is 50 machine epsilons of the chosen precision.", "quantifier": "all constructor arguments", "why_tests_cant": "All combinations of sizes, options, precisions and weights.", "anchors": ["hpelm/elm.py:__init__"]}
{"id": "C70", "title": "precision strings in any letter case", "statement": "A precision string selects single precision exactly when it names 'single' (any letter case) or '32' and does not name 'double' or '64'.", "quantifier": "every string", "why_tests_cant": "All strings.", "anchors": ["hpelm/elm.py:__init__"]}
{"id": "C71", "title": "Default neurons are usable and correctly scaled", "statement": "Neurons added without W and B: linear neurons copy the first input features; RBF neurons have outputs in (0, 1]; tanh and sigmoid neurons use standard normal weights multiplied by 3/sqrt(inputs).", "quantifier": "all models without neurons, all numbers of neurons, all values of the random generator (not exactly zero for RBF widths), all inputs", "why_tests_cant": "All random draws.", "anchors": ["hpelm/elm.py:add_neurons"]}
{"id": "C72", "title": "Each sample enters the accumulated sums exactly once, in any arithmetic", "statement": "After any sequence of add_data calls on a fresh unweighted model, every entry of HH returned by get_corr is a sum (in some order and bracketing, zeros allowed) of exactly one product h[i]*h[j] per sample plus norm once on the diagonal, and every entry of HT a sum of exactly one product h[i]*t[k] per sample. No law of arithmetic is used, so this holds for floating point on every accelerator and batch size.", "quantifier": "all models, accelerators, batch sizes, numbers of calls, data; every arithmetic", "why_tests_cant": "Tests compare floating-point results with a tolerance; they cannot see that each product is used exactly once for all splits.", "anchors": ["hpelm/nnets/slfn.py:add_batch", "hpelm/nnets/slfn_python.py:add_batch", "hpelm/elm.py:add_data"]}
{"id": "C73", "title": "Rounding error of the accumulated matrices is bounded", "statement": "If an entry of HH or HT is finite, it differs from the exact sum over the samples by at most ((1+u)^(N+1)-1) times the sum of absolute values plus an underflow term, N the number of samples; hence two ways of splitting the same data into calls and batches, on any accelerators, differ by at most twice that. u = 2^-53 in double and 2^-24 in single precision (IEEE arithmetic).", "quantifier": "all models, data, splits, and every arithmetic with a standard rounding model, including IEEE binary64 and binary32", "why_tests_cant": "A worst case over all inputs; tests sample a few roundings.", "anchors": ["hpelm/nnets/slfn.py:add_batch", "hpelm/nnets/slfn_python.py:add_batch", "hpelm/elm.py:add_data"]}
{"id": "C74", "title": "Rounding error of predict() is bounded", "statement": "Every finite prediction differs from the exact product of the computed hidden outputs with the stored weights by at most ((1+u)^L-1) sum |h||B| plus an underflow term, L the number of neurons.", "quantifier": "all models with output weights, all inputs, every arithmetic with a standard rounding model", "why_tests_cant": "A worst case over all inputs.", "anchors": ["hpelm/elm.py:predict", "hpelm/nnets/slfn.py:_predict"]}
{"id": "C75", "title": "Rounding error of the mean squared error is bounded", "statement": "ELM.error and HPELM.error of a regression model, when finite, differ from the exact mean squared error of the given targets and predictions by at most ((1+u)^k-1) times that error plus an underflow term, with k = N*c+3 and k = N*c+N+4: in particular the relative error is small even when the error itself is tiny.", "quantifier": "all targets and predictions, batch sizes, ranges, every arithmetic with a standard rounding model (sample counts below 2^53 or 2^24)", "why_tests_cant": "A worst case over all inputs.", "anchors": ["hpelm/elm.py:_error", "hpelm/hp_elm.py:_error"]}
{"id": "C76", "title": "Training does not depend on what the model was used for before", "statement": "Two models with the same configuration (inputs, outputs, norm, neurons, batch, precision, solver) give the same outcome of train() on the same data and arguments, and the same model afterwards, whatever data, class weights, options and output weights either of them held before; the same for HPELM.train.", "quantifier": "all pairs of models with equal configuration, all data, arguments and arithmetic", "why_tests_cant": "Tests train new objects; a stale field shows only after a particular history.", "anchors": ["hpelm/elm.py:train", "hpelm/elm.py:_train_parse_args", "hpelm/hp_elm.py:train"]}
{"id": "C77", "title": "Training does not depend on the order of the samples", "statement": "Training without structure selection on a permutation of the samples (inputs together with their targets) gives the same output weights, the same class weights and the same predictions, for plain training and for given or automatic class weights.", "quantifier": "all models, data sets and permutations (exact arithmetic)", "why_tests_cant": "All permutations of all data sets.", "anchors": ["hpelm/elm.py:train", "hpelm/elm.py:add_data"]}
{"id": "C78", "title": "Errors lie in their range, are zero exactly for perfect predictions, and ignore the order of samples", "statement": "error() is at least 0; it is at most 1 for classification, weighted classification and multi-label models; it is 0 exactly when every prediction is right (equal outputs, equal class, equal labels); permuting the samples does not change it. The same for HPELM.error on a range.", "quantifier": "all targets and predictions of at least one sample, all batch sizes and ranges", "why_tests_cant": "The equivalence 'zero iff perfect' ranges over all data.", "anchors": ["hpelm/elm.py:error", "hpelm/elm.py:_error", "hpelm/hp_elm.py:_error"]}
{"id": "C79", "title": "validation_corr tries sizes between 3 and the number of neurons", "statement": "validation_corr(steps) evaluates at most `steps` different sizes, in increasing order, from 3 to the number L of neurons, both included, and never a size that the model does not have.", "quantifier": "all L and steps", "why_tests_cant": "The sizes come from rounded logarithms and powers; whether the last one is L or L+1 depends on L.", "anchors": ["hpelm/hp_elm.py:validation_corr"]}
{"id": "C80", "title": "HPELM.train never selects a structure", "statement": "The arguments 'V', 'CV', 'LOO' and 'OP' do not change the model that HPELM.train computes, nor whether it succeeds (as long as at most one of V/CV/LOO is given).", "quantifier": "all models, data, arguments, ranges and arithmetic", "why_tests_cant": "All combinations and letter cases of arguments.", "anchors": ["hpelm/hp_elm.py:train"]}
{"id": "C81", "title": "HPELM checks data files, arrays and correlation files before using them", "statement": "HPELM.train, add_data, validation_corr, predict, project and error give the same result for an HDF5 file as for an array with the same contents. A file that does not exist, data of the wrong width, a rank above 2, or X and T with different numbers of samples are refused with IOError or AssertionError, and neither the model nor the files are changed; the same holds for the asynchronous variants. solve_corr and validation_corr refuse correlation files of the wrong shape and leave the model unchanged.", "quantifier": "all models, files, arrays, ranges, arguments and arithmetic", "why_tests_cant": "All combinations of files and arrays of all shapes, and all model states.", "anchors": ["hpelm/elm.py:_checkdata", "hpelm/hp_elm.py:train", "hpelm/hp_elm.py:add_data", "hpelm/hp_elm.py:solve_corr", "hpelm/hp_elm.py:validation_corr"]}
{"id": "C82", "title": "A failing add_data leaves no half-added data behind", "statement": "If add_data raises an exception, the accumulated data are what they would be after adding some whole batches from the beginning of the given data, existing correlation files keep their contents, and the model can be used further.", "quantifier": "all models, data, ranges, files and arithmetic", "why_tests_cant": "Every failing position in the data and every model state.", "anchors": ["hpelm/elm.py:add_data", "hpelm/hp_elm.py:add_data", "hpelm/nnets/slfn.py:add_batch", "hpelm/nnets/slfn_python.py:add_batch"]}
{"id": "C83", "title": "Training splits the targets into residual, prediction and weights; it is stable in the targets", "statement": "For a trained model with prediction Y of its training data and output weights B: |T|^2 = |T-Y|^2 + |Y|^2 + 2*norm*|B|^2. For two target matrices T1, T2 on the same inputs: |Y1-Y2|^2 + 2*norm*|B1-B2|^2 <= |T1-T2|^2.", "quantifier": "all models, data, targets and norms (exact arithmetic)", "why_tests_cant": "An identity and an inequality over all real data.", "anchors": ["hpelm/elm.py:train", "hpelm/nnets/slfn.py:solve"]}
{"id": "C84", "title": "Training on the data repeated k times is training once with norm divided by k", "statement": "A model with norm k*n trained on the whole data set repeated k times has the same output weights as a model with norm n trained on the data set once.", "quantifier": "all models, data, k >= 1 and norms (exact arithmetic)", "why_tests_cant": "All data sets and all k.", "anchors": ["hpelm/elm.py:train", "hpelm/nnets/slfn.py:add_batch"]}
{"id": "C85", "title": "HDF5 files named in HPELM calls can be used again after the call", "statement": "A call opens the data files it is given and stores its result in the named output file. When the calls have returned and the model is deleted, none of these files is open. A file that was read can afterwards be written (predict, project, make_hdf5, normalize_hdf5), and a call gives with file names what it gives with the contents of the files.", "quantifier": "all models, sequences of calls (train, add_data, solve_corr, predict, project, error, validation_corr, the start of the asynchronous calls, make_hdf5, normalize_hdf5) in one process", "why_tests_cant": "Depends on which files earlier calls left open, over arbitrary sequences.", "anchors": ["hpelm/elm.py:_checkdata", "hpelm/elm.py:__del__", "hpelm/hp_elm.py:predict", "hpelm/hp_elm.py:project", "hpelm/hp_elm.py:add_data_async"]}
{"id": "C86", "title": "Files given as input are never changed", "statement": "No call changes a data file that it reads, even if the same name is given as output, and no later call changes a file the model has open. Files that are not named as output never change.", "quantifier": "all sequences of calls in one process, all file names", "why_tests_cant": "All sequences and all coincidences of names.", "anchors": ["hpelm/elm.py:_checkdata", "hpelm/hp_elm.py:predict", "hpelm/hp_elm.py:add_data", "hpelm/modules/hdf5_tools.py:_write_fHH"]}
{"id": "C87", "title": "Correlation files given by name hold the sums and are closed after each call", "statement": "add_data with two names fHH, fHT and solve_corr work on the contents of these files and leave them closed, so that both can be called any number of times. One name given for both files is refused.", "quantifier": "all models, data, file names and file contents", "why_tests_cant": "All contents and histories of the files.", "anchors": ["hpelm/modules/hdf5_tools.py:_prepare_fHH", "hpelm/modules/hdf5_tools.py:_write_fHH", "hpelm/hp_elm.py:_checkcorr"]}
{"id": "C88", "title": "str(model) shows and determines the structure of the model", "statement": "str(model) is a line with the numbers of inputs and outputs and a line with the number and type of every group of neurons, separated by commas. Two models have the same string exactly if they have the same numbers of inputs and outputs and the same groups.", "quantifier": "all models with built-in neuron types", "why_tests_cant": "All numbers of inputs, outputs and neurons.", "anchors": ["hpelm/elm.py:__str__"]}
{"id": "C89", "title": "Progress reports come at most every tprint seconds and show a correct remaining time", "statement": "A call of HPELM that goes over nb batches prints, after a batch, the line 'processing batch b/nb, eta h:mm:ss' exactly if more than tprint seconds have passed since the last report (or since the start); b is the number of the batch, and h:mm:ss is the time left, in whole seconds, if each batch takes as long as the average so far, with 0 <= mm, ss < 60. The report of the last batch shows 0:00:00. A call that takes at most tprint seconds prints nothing.", "quantifier": "all clocks that do not go back, all tprint, all numbers of batches", "why_tests_cant": "The clock is an arbitrary sequence of times; tests see one run of it.", "anchors": ["hpelm/hp_elm.py:add_data", "hpelm/hp_elm.py:predict"]}
{"id": "C90", "title": "The residual of the normal equations bounds how far weights are from the trained ones", "statement": "For any matrix B', the distance between B' and the output weights found by train is at most the size of the residual HH B' - HT divided by norm, column by column, and the predictions on the training data made with B' differ from the trained ones by at most the residual divided by 2 sqrt(norm). The same holds in rounded arithmetic for the matrices that add_data accumulates, with an error term that is computed from the data.", "quantifier": "all trained models, data, and matrices B'; all rounded number systems", "why_tests_cant": "The bound holds for every possible result of the linear solver.", "anchors": ["hpelm/nnets/slfn.py:solve_corr", "hpelm/nnets/slfn_python.py:solve_corr", "hpelm/elm.py:train"]}
{"id": "C91", "title": "Targets that the neurons can produce are met up to the regularisation", "statement": "If some output weights B0 produce the training targets exactly, then the squared training error of the trained model plus norm times the squared size of its weights is at most norm times the squared size of B0.", "quantifier": "all trained models and data, all B0", "why_tests_cant": "All models, data and output weights.", "anchors": ["hpelm/elm.py:train", "hpelm/nnets/slfn.py:solve_corr"]}
{"id": "C92", "title": "A linear map of the targets is a linear map of the predictions", "statement": "If a second model with the same neurons is trained on targets T M for a matrix M, its predictions are those of the first model times M. The number of outputs may change.", "quantifier": "all trained models, data, matrices M and inputs of predict", "why_tests_cant": "All models, data and matrices.", "anchors": ["hpelm/elm.py:train", "hpelm/elm.py:predict"]}
{"id": "C93", "title": "Adding every neuron twice with twice the norm changes nothing", "statement": "A model with norm 2a to which each add_neurons call is made twice predicts, after training on the same data, the same as the model with norm a to which each call is made once.", "quantifier": "all lists of add_neurons calls with explicit weights, all training data and inputs of predict", "why_tests_cant": "All models and data.", "anchors": ["hpelm/elm.py:add_neurons", "hpelm/elm.py:train", "hpelm/nnets/slfn.py:add_neurons"]}
{"id": "C94", "title": "Given weights, output weights and correlation matrices are accepted exactly if their shapes fit", "statement": "set_B, set_corr and add_neurons with given (or default) weights and biases succeed exactly if the shapes are those of the model (neurons x outputs; neurons x neurons and neurons x outputs; inputs x number and number) and the type is known; otherwise they raise and change nothing.", "quantifier": "every consistent model, every shape, every neuron type and number", "why_tests_cant": "Quantifies over all shapes and all models; each accepted wrong shape shows up only later, in another call.", "anchors": ["hpelm/nnets/slfn.py:SLFN.set_B", "hpelm/nnets/slfn.py:SLFN.set_corr", "hpelm/elm.py:ELM.add_neurons"]}
{"id": "C95", "title": "Loading in another precision changes the parameters by rounding only", "statement": "A model saved in one precision and loaded into an object of the other keeps its sizes, task type and neuron types; single into double keeps every parameter and loading back gives the same model; double into single rounds every parameter once (relative error at most 2^-24, absolute 2^-150 near zero) and keeps those that are single precision numbers; predictions of lin, sigm and tanh models move by at most the corresponding first and second order terms.", "quantifier": "every consistent model, every parameter value, every input of predict", "why_tests_cant": "All models and all floating point values, including ties and the range near zero.", "anchors": ["hpelm/elm.py:ELM.load", "hpelm/elm.py:ELM.save", "hpelm/elm.py:ELM.predict"]}
{"id": "C96", "title": "Structure selection works in weighted classification", "statement": "train with 'WC' and one of 'V', 'CV' and 'LOO' succeeds on every data set on which train with 'WC' alone succeeds and on which the selection works without class weights.", "quantifier": "every model, data set with one class per sample, given or automatic class weights", "why_tests_cant": "Quantifies over all class weights and all distributions of classes; the failures need an absent class or particular weights.", "anchors": ["hpelm/mss_v.py:train_v", "hpelm/mss_cv.py:train_cv", "hpelm/mss_loo.py:train_loo", "hpelm/elm.py:ELM._error"]}
{"id": "C97", "title": "Keyword arguments of train act as documented", "statement": "train(..., batch=b) does what a model with batch size b does; kmax, w, k, Xv and Tv have no effect without 'OP', 'WC', 'CV' and 'V'; with 'OP', kmax=k and a structure selection at most k neurons are left; with 'WC', w gives the class weights of the solved ridge problem, and without w they are computed from the targets.", "quantifier": "every model, data set, argument list and keyword values, ELM.train and HPELM.train", "why_tests_cant": "Quantifies over all argument lists, keyword values and data; a test sees only a few combinations.", "anchors": ["hpelm/elm.py:ELM._train_parse_args", "hpelm/elm.py:ELM.train", "hpelm/hp_elm.py:HPELM.train"]}
{"id": "C98", "title": "Class weights count relative to the norm; a class of weight zero is ignored", "statement": "Multiplying all class weights and norm by the same positive number leaves the output weights of weighted training unchanged. Samples whose class has weight 0 have no influence: training without them gives the same output weights.", "quantifier": "every model, data set, list of sample weights and positive factor (exact arithmetic)", "why_tests_cant": "An identity over all real weights and data; floating-point tests see it only approximately and on a few data sets.", "anchors": ["hpelm/elm.py:ELM._train_parse_args", "hpelm/elm.py:ELM.add_data", "hpelm/nnets/slfn.py:SLFN.add_batch", "hpelm/nnets/slfn_python.py:SLFNPython.add_batch"]}
{"id": "C99", "title": "What 'LOO' minimises in classification", "statement": "With 'LOO' the number of neurons is chosen by the leave-one-out error; in classification this is the fraction of samples misclassified by the model trained without them.", "quantifier": "every model, data set, ranking and candidate number of neurons (exact arithmetic)", "why_tests_cant": "Tests look at the size of the trained model; the value that was minimised is never shown, and a wrong criterion still returns some valid number of neurons.", "anchors": ["hpelm/mss_loo.py:train_loo", "hpelm/elm.py:ELM._error"]}
{"id": "C100", "title": "MRSR keeps the chosen neurons equally correlated with the residual", "statement": "The ranking used by 'OP' starts with the neuron most correlated with the targets. At each step the model output moves towards the least-squares fit of the chosen neurons until another neuron is as correlated with the residual as the chosen ones: then all chosen neurons are equally correlated with the residual, none is more correlated, and the next neuron is one of the most correlated ones not yet chosen.", "quantifier": "every hidden layer output with independent columns, every target matrix and every number of ranked neurons (exact arithmetic)", "why_tests_cant": "An invariant of an iterative algorithm over all real matrices; a test compares a few rankings, and the residuals between the steps are not visible from outside.", "anchors": ["hpelm/modules/mrsr.py:mrsr"]}
{"id": "C101", "title": "MRSR2 ranks one-output data like MRSR", "statement": "With one output, mrsr2 (the ranking used for more than ten outputs, an approximation of mrsr with the Euclidean norm) returns the same ranking as mrsr. At each step the output moves towards the least-squares fit of the neurons chosen so far, until a new neuron is as correlated with the residual as the chosen ones.", "quantifier": "every hidden layer output, every one-column target matrix and every number of ranked neurons", "why_tests_cant": "Two iterative algorithms agree or differ depending on the real data; a test on a few matrices sees equal rankings, since the first neurons agree.", "anchors": ["hpelm/modules/mrsr2.py:mrsr2", "hpelm/modules/mrsr.py:mrsr"]}
{"id": "C102", "title": "The unit of the targets changes nothing but the unit", "statement": "Multiplying the training targets (and the validation targets) by a constant changes nothing but the unit: train succeeds or fails alike, selects the same neurons with 'V', 'CV', 'LOO' and 'OP', the predictions are multiplied by the constant, and squared errors (of error and returned by 'CV') by its square; classification errors do not change. For regression and single-label classification.", "quantifier": "every model, data, targets, keyword arguments and every non-zero constant, positive with 'C' or 'OP' (exact arithmetic, numerical routines that respect the unit)", "why_tests_cant": "A relation between two executions of a search with many comparisons, for every scale factor; a fixed tolerance or penalty anywhere in the search or ranking breaks it only at extreme scales.", "anchors": ["hpelm/elm.py:train", "hpelm/elm.py:_error", "hpelm/mss_v.py:train_v", "hpelm/mss_cv.py:train_cv", "hpelm/mss_loo.py:train_loo", "hpelm/modules/mrsr.py:mrsr", "hpelm/modules/mrsr2.py:mrsr2"]}
{"id": "C103", "title": "Training forgets the past", "statement": "The outcome of train depends on the neurons and the settings of the model (sizes, norm, batch, precision, accelerator) and on the arguments of the call, not on what earlier calls left behind: output weights, accumulated sums, class weights, task type, ranking. In particular, train after any sequence of add_data and train calls without model structure selection gives the same result and the same model as on the untouched model.", "quantifier": "every two models with the same neurons and settings, every data and arguments, every sequence of earlier calls, failed ones included, every arithmetic", "why_tests_cant": "Quantifies over everything that could have been left in the object by earlier calls; a test tries one or two histories.", "anchors": ["hpelm/elm.py:train", "hpelm/elm.py:_train_parse_args", "hpelm/hp_elm.py:train", "hpelm/nnets/slfn.py:reset"]}
{"id": "C104", "title": "The order of the samples does not matter for structure selection", "statement": "train on reordered samples (inputs and targets together) does exactly the same as on the original ones: the same neurons are selected, the same model results, the same value is returned or the same error raised. This holds without selection, with 'V' (also if the validation samples are reordered) and 'LOO', with random or 'OP' ranking, for every task. With 'CV' it holds if each sample moves by a multiple of k places; otherwise the returned error can change. Both rankings of 'OP' do not depend on the order of the samples.", "quantifier": "all models, data sets, permutations of the samples and of the validation samples, all options (exact arithmetic)", "why_tests_cant": "Quantifies over all permutations and all data; a test with floating-point data would also see rounding differences instead of exact equality.", "anchors": ["hpelm/elm.py:train", "hpelm/mss_v.py:train_v", "hpelm/mss_cv.py:train_cv", "hpelm/mss_loo.py:train_loo", "hpelm/modules/mrsr.py:mrsr", "hpelm/modules/mrsr2.py:mrsr2"]}
{"id": "C105", "title": "A change of the inputs that is compensated in the neurons changes nothing", "statement": "If the features are given in another order and the rows of the weights of all neurons are reordered in the same way, then projection, training with every option, the value returned or error raised by train, and all predictions are the same. The same holds if constants are added to the features and subtracted (times the weights) from the biases of 'lin', 'sigm' and 'tanh' neurons or added to the centroids of RBF neurons; if features are multiplied by non-zero factors and the weights divided by them (no RBF neurons); and if constant features are added, with any weights compensated in the biases, or with the constant as coordinate of the centroids. The changed model is the one obtained by adding the changed neurons with add_neurons.", "quantifier": "all models, data sets, permutations, shifts, factors and constants, all training options (exact arithmetic)", "why_tests_cant": "Quantifies over all models, data and changes of the inputs; with floating-point numbers a test sees rounding differences instead of equality.", "anchors": ["hpelm/nnets/slfn.py:_project", "hpelm/nnets/slfn.py:_prune", "hpelm/elm.py:add_neurons", "hpelm/elm.py:train", "hpelm/elm.py:predict"]}
{"id": "C106", "title": "What more data change in a trained model", "statement": "Adding k copies of a sample (x, t) to the training data moves the prediction at x towards t: the distance of every output is divided by 1 + k*a, where a >= 0 depends on the inputs and neurons only (not on the targets) and is zero only if all neurons give zero for x; the output weights move along one direction that does not depend on the targets. Adding samples that the model already predicts exactly leaves the output weights unchanged. For any added data the total squared error on them is not larger than it was before, and the fall is at least as large as the rise of the objective on the old data.", "quantifier": "all models, data sets, added samples, targets, k and norms > 0 (exact arithmetic)", "why_tests_cant": "A relation between two training runs for all data; on examples the effect of a wrong normalisation or a sample counted twice can look like noise.", "anchors": ["hpelm/elm.py:train", "hpelm/elm.py:add_data", "hpelm/nnets/slfn.py:add_batch", "hpelm/nnets/slfn.py:solve"]}
{"id": "C107", "title": "Rounding error of predictions of a whole network", "statement": "For a network of 'lin', 'sigm' and 'tanh' neurons computed in floating point, every finite prediction differs from the prediction of the same network (same weights and biases) in exact arithmetic at most by a bound computed from the weights and inputs: the rounding of x.W+b in each neuron, plus the error of the library's exp or tanh, times the sizes of the output weights, plus the rounding of the product with the output weights. Neither sigmoid nor tanh amplifies the error of its argument. The value of one neuron is within the first part of that bound.", "quantifier": "all networks of these neurons, weights, inputs, rounded arithmetics (binary64, binary32) and accuracies v of exp/tanh, if the weighted sums do not overflow", "why_tests_cant": "A bound for all weights and inputs; tests see the rounding of single cases only and compare with a tolerance chosen by hand.", "anchors": ["hpelm/nnets/slfn.py:_project", "hpelm/nnets/slfn.py:predict", "hpelm/elm.py:predict", "hpelm/elm.py:project"]}
{"id": "C108", "title": "A negative istart counts from the end of the data", "statement": "HPELM.add_data, predict and error with istart=-m (1 <= m <= N) do the same as with istart=N-m, whatever icount and batch are; in particular no sample is used twice and the result does not depend on the batch size.", "quantifier": "all data sets, m, icount, batch sizes >= 1, models", "why_tests_cant": "Tests use istart >= 0; with the default batch of 1000 small data sets fit into one batch and hide the error, and for predict only some combinations of N, m, icount and batch fail.", "anchors": ["hpelm/hp_elm.py:add_data", "hpelm/hp_elm.py:predict", "hpelm/hp_elm.py:error", "hpelm/hp_elm.py:train"]}
{"id": "C109", "title": "Rounding error of predictions of networks with RBF neurons", "statement": "The output of an 'rbf_l1' or 'rbf_l2' neuron computed in floating point differs from exp(-distance^2/width) in exact arithmetic by at most a relative error (1+v)*exp(d)-1 plus one underflow, where v is the relative accuracy of the library's exp and d bounds the error of the argument: the rounding of the differences, of their sum, of the root and square, and of the division, all divided by the width. Every finite prediction of a network of 'lin', 'sigm', 'tanh', 'rbf_l1' and 'rbf_l2' neurons in any combination differs from the prediction of the same network in exact arithmetic at most by these errors times the sizes of the output weights, plus the rounding of the product with the output weights. HPELM.predict on any range of a file or array, with any batch size, obeys the same bound row by row.", "quantifier": "all networks of these neurons, centres, widths > 0, inputs, rounded arithmetics (binary64, binary32) and accuracies v of exp/tanh, if no argument overflows", "why_tests_cant": "A bound for all centres, widths and inputs; tests see the rounding of single cases only. For small widths the error of the distance is amplified, which tests with default widths do not show.", "anchors": ["hpelm/nnets/slfn.py:_project", "hpelm/nnets/slfn.py:predict", "hpelm/elm.py:predict", "hpelm/elm.py:project", "hpelm/hp_elm.py:predict"]}
