{"id": "C01", "title": "Each cross-validation fold partitions the corpus", "statement": "For every corpus size, every fold count above one and every fold id below it, the training and query document ids returned for that fold are a permutation of all the document ids: nothing is lost, nothing is duplicated, and no document is in both halves.", "quantifier": "all document counts D>=1, all num_folds>1, all integers fold<num_folds (including negative ids, which the code accepts)", "why_tests_cant": "A unit test fixes a handful of sizes and values; the claim is about every one of them.", "anchors": ["sidetopics/model/common.py:DataSet.cross_valid_split_indices"]}
{"id": "C02", "title": "Over all folds every document is queried, and exactly once when the fold count divides the corpus", "statement": "Running every fold puts each document in at least one query set; when num_folds divides the document count it is in exactly one; when num_folds<=D it is in at most two.", "quantifier": "all D>=1, all num_folds>1, all documents", "why_tests_cant": "A unit test fixes a handful of sizes and values; the claim is about every one of them.", "anchors": ["sidetopics/model/common.py:DataSet.cross_valid_split_indices"]}
{"id": "C03", "title": "Query sets of different folds are disjoint", "statement": "No document is evaluated by two different folds of the same cross-validation.", "quantifier": "all D, num_folds, pairs of folds", "why_tests_cant": "The wrap-around only shows for sizes that the fold count does not divide; a test at round sizes passes.", "anchors": ["sidetopics/model/common.py:DataSet.cross_valid_split_indices"]}
{"id": "C04", "title": "cross_valid_split keeps words, features, categories and order of a document together", "statement": "Row i of every component of the training (query) dataset is the complete record of the document whose id is the i-th training (query) index, and its recorded order is the parent's order at that index.", "quantifier": "all datasets, fold counts and fold ids", "why_tests_cant": "A unit test fixes a handful of sizes and values; the claim is about every one of them.", "anchors": ["sidetopics/model/common.py:DataSet.cross_valid_split"]}
{"id": "C05", "title": "Row coherence is preserved by every history of dataset operations", "statement": "After any sequence of reorderings, prunings/shuffles, splits and copies, every row's words, features and category all come from one and the same original document, and all components have the same number of rows.", "quantifier": "all datasets, all finite sequences of operations, all random draws", "why_tests_cant": "Histories are unbounded; a test runs a few fixed ones.", "anchors": ["sidetopics/model/common.py:DataSet._reorder", "sidetopics/model/common.py:DataSet.prune_and_shuffle", "sidetopics/model/common.py:DataSet.cross_valid_split", "sidetopics/model/common.py:DataSet.copy_with_changes"]}
{"id": "C06", "title": "prune_and_shuffle keeps exactly the documents meeting the thresholds", "statement": "With no link threshold the retained documents are exactly those with enough unique words, in some order; with a link threshold the retained set is the largest set of such documents in which every one has enough links to other retained ones; the returned index vector is the map from new rows to old rows; the loop terminates.", "quantifier": "all datasets with square non-negative link matrices, all thresholds, all shuffles", "why_tests_cant": "The maximality claim quantifies over all subsets of documents, and termination over all link graphs.", "anchors": ["sidetopics/model/common.py:DataSet.prune_and_shuffle", "sidetopics/model/common.py:_reorder_link_matrix"]}
{"id": "C07", "title": "The order of a dataset always refers to the rows originally read in", "statement": "After any history of operations, the i-th entry of the dataset's order is the original row number of the i-th row.", "quantifier": "all operation histories", "why_tests_cant": "Only second and later operations break it; tests exercise one operation.", "anchors": ["sidetopics/model/common.py:DataSet.order", "sidetopics/model/common.py:DataSet.prune_and_shuffle", "sidetopics/model/common.py:DataSet.from_files"]}
{"id": "C08", "title": "Limit truncates the dataset", "statement": "Constructing a dataset with a positive limit smaller than the number of rows gives a dataset of exactly limit documents.", "quantifier": "all datasets and limits", "why_tests_cant": "A unit test fixes a handful of sizes and values; the claim is about every one of them.", "anchors": ["sidetopics/model/common.py:DataSet.__init__"]}
{"id": "C09", "title": "Category file grouping recovers the per-document category lists", "statement": "Writing each document's non-empty list of categories as tokens whose last one carries the newline and reading them back with the grouping loop returns the same lists.", "quantifier": "all lists of non-empty category lists without newlines", "why_tests_cant": "A unit test fixes a handful of sizes and values; the claim is about every one of them.", "anchors": ["sidetopics/model/common.py:DataSet.from_files"]}
{"id": "C10", "title": "The undirected link graph is symmetric and carries both directions", "statement": "After conversion to an undirected graph, entry (i,j) equals entry (j,i) equals the sum of the two original directed weights; symmetry survives reordering.", "quantifier": "all square link matrices, all reorderings", "why_tests_cant": "A unit test fixes a handful of sizes and values; the claim is about every one of them.", "anchors": ["sidetopics/model/common.py:DataSet.convert_to_undirected_graph", "sidetopics/model/common.py:_reorder_link_matrix"]}
{"id": "C11", "title": "Binary link matrix has ones exactly at the non-zero links", "statement": "After conversion to a binary link matrix, entry (i,j) is one if the original entry was non-zero and zero otherwise.", "quantifier": "all link matrices, including ones with explicitly stored zeros or repeated coordinates", "why_tests_cant": "Stored zeros are invisible through the usual test constructors.", "anchors": ["sidetopics/model/common.py:DataSet.convert_to_binary_link_matrix"]}
{"id": "C12", "title": "After add_intercept_to_feats_if_required the features contain a constant-one column", "statement": "Whatever features a dataset has, after the call some feature column equals one in every row; calling it a second time changes nothing.", "quantifier": "all feature matrices with at least one row", "why_tests_cant": "A unit test fixes a handful of sizes and values; the claim is about every one of them.", "anchors": ["sidetopics/model/common.py:DataSet.add_intercept_to_feats_if_required"]}
{"id": "C13", "title": "words_with_min_freq keeps exactly the words occurring in enough documents", "statement": "A word column is retained iff it is non-zero in at least the given number of documents; retained columns keep their counts, document by document, and their dictionary entry.", "quantifier": "all word matrices, dictionaries and thresholds", "why_tests_cant": "A unit test fixes a handful of sizes and values; the claim is about every one of them.", "anchors": ["sidetopics/model/common.py:DataSet.words_with_min_freq"]}
{"id": "C14", "title": "Document completion conserves every token", "statement": "For a dataset without features, in every document and for every word, the estimation count plus the evaluation count equals the original count, for every random jitter and proportion.", "quantifier": "all datasets, proportions, jitter draws", "why_tests_cant": "The jitter is random and the rounding depends on it.", "anchors": ["sidetopics/model/common.py:DataSet.doc_completion_split"]}
{"id": "C15", "title": "Document completion never yields negative counts", "statement": "Both halves of a document-completion split contain non-negative counts.", "quantifier": "all datasets, all jitter draws", "why_tests_cant": "Negative counts arise only from unlikely jitter draws.", "anchors": ["sidetopics/model/common.py:DataSet.doc_completion_split"]}
{"id": "C16", "title": "Document completion with a minimum-words filter returns both halves", "statement": "With min_unique_word_count>0, the split returns two datasets holding exactly the documents that have enough unique words in both halves.", "quantifier": "all datasets, thresholds and jitter draws", "why_tests_cant": "The failing path is taken only if some document fails the filter.", "anchors": ["sidetopics/model/common.py:DataSet.doc_completion_split"]}
{"id": "C17", "title": "A folded link split divides the links of each document", "statement": "For each fold, the training and query link matrices add up to the original and share no link.", "quantifier": "all CSR matrices, fold counts, fold ids and minimum link counts", "why_tests_cant": "A unit test fixes a handful of sizes and values; the claim is about every one of them.", "anchors": ["sidetopics/model/common.py:_folded_split", "sidetopics/model/common.py:DataSet.folded_link_prediction_split"]}
{"id": "C18", "title": "Over all folds every link of an evaluated document is queried exactly once", "statement": "For documents with at least the minimum number of links, each link is in the query half of exactly one fold.", "quantifier": "all CSR matrices, fold counts, minimum link counts", "why_tests_cant": "A unit test fixes a handful of sizes and values; the claim is about every one of them.", "anchors": ["sidetopics/model/common.py:_folded_split"]}
{"id": "C19", "title": "The random link-prediction split returns two halves adding up to the link matrix", "statement": "Calling link_prediction_split on a dataset with links returns two datasets whose link matrices sum to the original.", "quantifier": "all datasets with links and all permutations drawn", "why_tests_cant": "A unit test fixes a handful of sizes and values; the claim is about every one of them.", "anchors": ["sidetopics/model/common.py:_split", "sidetopics/model/common.py:_split_symm", "sidetopics/model/common.py:DataSet.link_prediction_split"]}
{"id": "C20", "title": "split_on_feature separates documents with the feature from those without", "statement": "Each document goes to exactly one of the two datasets: query if it has one of the given features, training otherwise.", "quantifier": "all feature matrices and feature lists", "why_tests_cant": "Counter-examples need signed features that cancel or several features.", "anchors": ["sidetopics/model/common.py:DataSet.split_on_feature"]}
{"id": "C21", "title": "The two column-dropping helpers agree", "statement": "Dropping columns via fancy indexing and via coordinate filtering gives the same matrix, in which the kept columns retain their order and contents.", "quantifier": "all matrices and all sets of columns to drop (in any order, with repeats)", "why_tests_cant": "A unit test fixes a handful of sizes and values; the claim is about every one of them.", "anchors": ["sidetopics/model/common.py:dropcols_fancy", "sidetopics/model/common.py:dropcols_coo"]}
{"id": "C22", "title": "soft_split_on_indices partitions the stored entries", "statement": "The two matrices returned add up to the input, no coordinate is non-zero in both, only selected columns reach the right one, and with probability one all of them do.", "quantifier": "all CSR matrices, column sets, probabilities and random draws", "why_tests_cant": "Random draws choose the split; the claim holds for all of them.", "anchors": ["sidetopics/run/__main__.py:soft_split_on_indices"]}
{"id": "C23", "title": "Mean average precision lies in [0,1] and is 1 for perfect rankings", "statement": "Whenever mean_average_prec returns a value, it lies between zero and one; if for every document all expected links precede all others in the ranking it equals the fraction of documents that have links.", "quantifier": "all expected link matrices and all score matrices", "why_tests_cant": "Bounds for all rankings.", "anchors": ["sidetopics/model/evals.py:mean_average_prec"]}
{"id": "C24", "title": "Precision at m never exceeds one", "statement": "Every precision-at-m reported by mean_prec_rec_at is at most one.", "quantifier": "all link matrices, scores, values of m", "why_tests_cant": "Needs more than m+1 relevant documents ranked on top.", "anchors": ["sidetopics/model/evals.py:mean_prec_rec_at"]}
{"id": "C25", "title": "Recall at m lies in [0,1] and does not decrease with m", "statement": "Every recall-at-m reported by mean_prec_rec_at lies between zero and one, and asking for a larger m never lowers it.", "quantifier": "all link matrices, scores, values of m and group lists", "why_tests_cant": "A unit test fixes a handful of sizes and values; the claim is about every one of them.", "anchors": ["sidetopics/model/evals.py:mean_prec_rec_at"]}
{"id": "C26", "title": "mean_prec_rec_at works with its default groups and leaves its arguments alone", "statement": "Called with no groups it evaluates all documents in a single all-inclusive group; called with groups it does not change the caller's list.", "quantifier": "all link matrices and group lists", "why_tests_cant": "A unit test fixes a handful of sizes and values; the claim is about every one of them.", "anchors": ["sidetopics/model/evals.py:mean_prec_rec_at"]}
{"id": "C27", "title": "Mean reciprocal rank lies in (0,1] and fails only if nothing was found", "statement": "mean_reciprocal_rank returns the average over found expected links of one over the link's rank; this is in (0,1]; it raises exactly when no expected link occurs in its document's ranking.", "quantifier": "all link matrices and scores", "why_tests_cant": "A unit test fixes a handful of sizes and values; the claim is about every one of them.", "anchors": ["sidetopics/model/evals.py:mean_reciprocal_rank"]}
{"id": "C28", "title": "Group document counts add up", "statement": "The all-documents count equals both the number of documents with links and the sum of the counts of the other groups, and the all-documents recall total is the sum of the groups' recall totals.", "quantifier": "all link matrices, scores and duplicate-free group lists", "why_tests_cant": "A unit test fixes a handful of sizes and values; the claim is about every one of them.", "anchors": ["sidetopics/model/evals.py:mean_prec_rec_at"]}
{"id": "C29", "title": "Combining fold results gives the document-weighted mean", "statement": "combine_map of per-fold means and counts, folded over any number of folds, equals the mean over all documents of all folds, whatever the order of folds; it fails when a group is empty in both operands.", "quantifier": "all sequences of per-fold results", "why_tests_cant": "All fold sequences and orders.", "anchors": ["sidetopics/run/__main__.py:combine_map"]}
{"id": "C30", "title": "Sparse vec-transpose computes the vec-transpose and undoes itself", "statement": "The compiled CSR vec-transpose puts the entry at (i,j) at (j*p + i mod p, i div p), and applying it twice gives back the original matrix.", "quantifier": "all CSR matrices whose row count p divides, all p>=1", "why_tests_cant": "A unit test fixes a handful of sizes and values; the claim is about every one of them.", "anchors": ["sidetopics/util/vt_fast.pyx:sparse_vec_transpose_f8r", "sidetopics/util/vectrans.py:vec_transpose_csr"]}
{"id": "C31", "title": "The vec-transpose permutation matrix maps vec(A) to vec(A')", "statement": "For every matrix of the given shape, multiplying the generated sparse matrix with vec(A) gives vec of the transpose of A; the matrix is a permutation.", "quantifier": "all shapes and all matrices", "why_tests_cant": "A unit test fixes a handful of sizes and values; the claim is about every one of them.", "anchors": ["sidetopics/util/vectrans.py:sp_vec_trans_matrix", "sidetopics/util/vectrans.py:vec"]}
{"id": "C32", "title": "csr_indices lists the coordinates of every stored element", "statement": "The row and column vectors returned pair position by position with the data vector so that scattering them rebuilds the matrix.", "quantifier": "all CSR matrices including ones with empty rows", "why_tests_cant": "A unit test fixes a handful of sizes and values; the claim is about every one of them.", "anchors": ["sidetopics/util/sparse_elementwise.py:csr_indices"]}
{"id": "C33", "title": "Element-wise products with a dot product honour the row range", "statement": "For every row range, the element-wise quotient/product of the stored entries with the dense product yields, for each row of the range, each stored value combined with that entry's own dot product, and leaves the rest alone.", "quantifier": "all CSR matrices, dense factors and row ranges", "why_tests_cant": "Wrong data only shows for ranges not starting at row zero.", "anchors": ["sidetopics/util/se_fast.pyx:sparseScalarQuotientOfDot_f8", "sidetopics/util/se_fast.pyx:sparseScalarProductOfSafeLnDot_f8", "sidetopics/util/sparse_elementwise.py:sparseScalarQuotientOfDot"]}
{"id": "C34", "title": "The overflow-safe log(1+exp(x)) is within its stated tolerance of the true value", "statement": "For every real x the piecewise approximation differs from log(1+exp(x)) by less than exp(-33) in the double variants and exp(-13.8) in the single one, equals it in the middle range, and lies above it up to the upper limit and below it beyond.", "quantifier": "all real numbers", "why_tests_cant": "Infinitely many inputs.", "anchors": ["sidetopics/util/se_fast.pyx:safe_log_one_plus_exp_f8", "sidetopics/util/overflow_safe.py:safe_log_one_plus_exp_of"]}
{"id": "C35", "title": "Row-wise softmax returns a probability distribution", "statement": "Every row of the result is positive and sums to one, adding a constant to a row does not change it, larger inputs get larger probabilities, and no exponential is taken of a positive number.", "quantifier": "all real matrices with at least one column", "why_tests_cant": "Infinitely many inputs.", "anchors": ["sidetopics/util/sigmoid_utils.py:rowwise_softmax"]}
{"id": "C36", "title": "Convergence is reported only when the bound has flattened", "statement": "converged reports True only if at least two measurements exist, enough iterations passed, and the last change per iteration is small in magnitude.", "quantifier": "all measurement histories and tolerances", "why_tests_cant": "A unit test fixes a handful of sizes and values; the claim is about every one of them.", "anchors": ["sidetopics/util/misc.py:converged"]}
{"id": "C37", "title": "Training runs exactly the requested number of iterations", "statement": "The segments into which CVB/CVB0/SVB training divides its work add up to the requested iteration count whatever the logging frequency, unless it stops early.", "quantifier": "all iteration counts and log frequencies", "why_tests_cant": "Only frequencies larger than the iteration count break it.", "anchors": ["sidetopics/model/lda_cvb0.py:train", "sidetopics/model/lda_cvb.py:train", "sidetopics/model/lda_svb.py:train"]}
{"id": "C38", "title": "CVB0 topic counts stay equal to the sums of the token assignments", "statement": "At every point of every iteration, including after an abort on an invalid probability, each document-topic, topic-word and topic total count equals the corresponding sum of token-topic responsibilities (plus the model's fixed counts).", "quantifier": "all corpora, priors, initial responsibilities and iteration counts", "why_tests_cant": "Invariant over unbounded sweeps and abort points.", "anchors": ["sidetopics/model/lda_cvb0_fast.pyx:iterate_f64", "sidetopics/model/lda_cvb0_fast.pyx:iterate_f32", "sidetopics/model/lda_cvb0_fast.pyx:calculateCounts_f64"]}
{"id": "C39", "title": "A CVB0 query leaves the trained model's counts as they were", "statement": "After query, the model's topic-word and topic counts have their former values, and the query's own counts exclude the model's.", "quantifier": "all models and query corpora", "why_tests_cant": "A unit test fixes a handful of sizes and values; the claim is about every one of them.", "anchors": ["sidetopics/model/lda_cvb0.py:train", "sidetopics/model/lda_cvb0.py:query"]}
{"id": "C40", "title": "Expanding a count matrix to tokens preserves each document's bag of words", "statement": "The token lists built from a document-term matrix contain word t in document d exactly as often as the matrix says, whatever the random shuffling.", "quantifier": "all count matrices and shuffles", "why_tests_cant": "A unit test fixes a handful of sizes and values; the claim is about every one of them.", "anchors": ["sidetopics/model/lda_cvb_fast.pyx:toWordList_i32", "sidetopics/model/lda_gibbs_fast.pyx:flatten_native"]}
{"id": "C41", "title": "Gibbs sampling counts match the assignments at all times", "statement": "After any number of Gibbs sweeps, with any random draws that select a topic, the document-topic, topic-word and topic counts equal the tallies of the current assignments, and every document keeps its length.", "quantifier": "all corpora, assignments, random draws and sweep counts", "why_tests_cant": "Unbounded sweeps and random draws.", "anchors": ["sidetopics/model/lda_gibbs_fast.pyx:sample", "sidetopics/model/lda_gibbs_fast.pyx:sumSuffStats"]}
{"id": "C42", "title": "Thinning records the stated number of samples and burn-in records none", "statement": "A run of n sweeps thinned by t adds exactly n div t samples to the sums and returns that number; a burn-in run records nothing.", "quantifier": "all sweep and thinning counts", "why_tests_cant": "A unit test fixes a handful of sizes and values; the claim is about every one of them.", "anchors": ["sidetopics/model/lda_gibbs_fast.pyx:sample", "sidetopics/model/lda_gibbs.py:train"]}
{"id": "C43", "title": "Querying a Gibbs model does not change its word distributions", "statement": "The model returned by a query has the same word distributions as the model queried.", "quantifier": "all models, queries and plans", "why_tests_cant": "Only shows when the number of query samples differs from the number of training samples.", "anchors": ["sidetopics/model/lda_gibbs.py:query", "sidetopics/model/lda_gibbs.py:wordDists"]}
{"id": "C44", "title": "The default mixture Gibbs plan is runnable for every iteration count", "statement": "A train plan built with default thinning can be executed for every positive number of iterations.", "quantifier": "all iteration counts", "why_tests_cant": "Fails only below ten iterations.", "anchors": ["sidetopics/model/mom_gibbs.py:newTrainPlan", "sidetopics/model/mom_gibbs.py:is_sampling_iteration"]}
{"id": "C45", "title": "The scikit-learn wrapper refuses to transform or score before being fitted, and fitting twice on the same data resumes", "statement": "For every sequence of fit/transform/score calls: transform and score before any fit raise; a resumed fit happens only for the same data object; otherwise resuming raises; the components always come from the last state assigned.", "quantifier": "all call sequences", "why_tests_cant": "Unbounded call histories.", "anchors": ["sidetopics/model/sklearn/lda_cvb.py:TopicModel.fit", "sidetopics/model/sklearn/lda_cvb.py:TopicModel.transform", "sidetopics/model/sklearn/lda_cvb.py:TopicModel.score"]}
{"id": "C46", "title": "The point log-likelihood of a mixture is a log-likelihood", "statement": "The point log-likelihood score is the sum over documents of the logarithm of a probability for both admixture and mixture models.", "quantifier": "all word matrices and distributions", "why_tests_cant": "A unit test fixes a handful of sizes and values; the claim is about every one of them.", "anchors": ["sidetopics/model/sklearn/lda_cvb.py:TopicModel._log_likelihood_score_point"]}
{"id": "C47", "title": "Perplexity cross-validation averages exactly the folds that finished", "statement": "Whatever folds crash, the reported total likelihoods and token counts are the sums over the folds that completed, folds are visited in increasing order at most once, and at most the requested number complete.", "quantifier": "all patterns of failures and fold settings", "why_tests_cant": "All crash patterns.", "anchors": ["sidetopics/run/__main__.py:cross_val_and_eval_perplexity"]}
{"id": "C48", "title": "truncate-folds limits the number of folds evaluated in hashtag evaluation", "statement": "At most the requested number of folds is evaluated.", "quantifier": "all fold settings", "why_tests_cant": "A unit test fixes a handful of sizes and values; the claim is about every one of them.", "anchors": ["sidetopics/run/__main__.py:cross_val_and_eval_hashtag_prec_at_m"]}
{"id": "C49", "title": "Mini-batch variational training visits all documents evenly", "statement": "One pass of minibatch training visits every document at least once and numbers of visits of two documents differ by at most one over any number of steps; a pass visits each document exactly once.", "quantifier": "all corpus sizes, batch sizes and iteration counts", "why_tests_cant": "A unit test fixes a handful of sizes and values; the claim is about every one of them.", "anchors": ["sidetopics/model/lda_vb_python.py:train"]}
{"id": "C50", "title": "A variational LDA query leaves the model unchanged", "statement": "Calling query does not change the model's word distributions.", "quantifier": "all models and query sets", "why_tests_cant": "A unit test fixes a handful of sizes and values; the claim is about every one of them.", "anchors": ["sidetopics/model/lda_vb_python.py:query", "sidetopics/model/lda_vb_python.py:train"]}
{"id": "C51", "title": "Dirichlet parameters and means convert back and forth without loss", "statement": "Converting per-document Dirichlet parameters to means and back (or the reverse) returns the original values, and means of valid parameters sum to one.", "quantifier": "all parameters, priors and document lengths", "why_tests_cant": "A unit test fixes a handful of sizes and values; the claim is about every one of them.", "anchors": ["sidetopics/model/lda_vb_python.py:_convertDirichletParamToMeans", "sidetopics/model/lda_vb_python.py:_convertMeansToDirichletParam"]}
{"id": "C52", "title": "Undirected links are each considered once", "statement": "Taking, for each document, the links to earlier documents enumerates each undirected link between distinct documents exactly once.", "quantifier": "all symmetric link graphs with sorted indices", "why_tests_cant": "A unit test fixes a handful of sizes and values; the claim is about every one of them.", "anchors": ["sidetopics/model/rtm.py:_links_up_to_csr"]}
{"id": "C53", "title": "Link predictions retain every expected link", "statement": "The sparse prediction matrix built with the per-document minimum probability contains every expected link of the document, so ranking metrics never miss one.", "quantifier": "all scores and expected links", "why_tests_cant": "A unit test fixes a handful of sizes and values; the claim is about every one of them.", "anchors": ["sidetopics/model/lro_vb.py:min_link_probs", "sidetopics/model/lro_vb.py:link_probs", "sidetopics/model/sim_based_rec.py:link_probs_lda", "sidetopics/model/rtm.py:link_probs"]}
{"id": "C54", "title": "Result files written by the evaluation are found by the report generator", "statement": "The file name given to a saved correlated-topic-model fold matches the pattern with which the report generator looks for it.", "quantifier": "all topic counts, folds and timestamps", "why_tests_cant": "A unit test fixes a handful of sizes and values; the claim is about every one of them.", "anchors": ["sidetopics/run/__main__.py:newModelFile", "sidetopics/run/__main__.py:save_model", "sidetopics/run/report_generator.py:CtmOutFileNameFormat"]}
{"id": "C55", "title": "dtype strings parse to the type they name or are rejected", "statement": "Every string is either one of the accepted spellings, giving the type named, or raises an error; case does not matter.", "quantifier": "all strings", "why_tests_cant": "A unit test fixes a handful of sizes and values; the claim is about every one of them.", "anchors": ["sidetopics/run/__main__.py:parse_dtype"]}
{"id": "C56", "title": "Quoted text round-trips through CSV", "statement": "Reading back a quoted cell by the usual CSV rules returns the original text.", "quantifier": "all strings", "why_tests_cant": "Only texts with quotes fail.", "anchors": ["sidetopics/run/reshape_results.py:quoteText"]}
{"id": "C57", "title": "eliminateParentheses removes exactly the parenthesised parts", "statement": "For every balanced text, the result is the text without its parenthesised sub-strings; the result of any text has no opening bracket; it is idempotent on balanced input.", "quantifier": "all strings", "why_tests_cant": "A unit test fixes a handful of sizes and values; the claim is about every one of them.", "anchors": ["sidetopics/run/arxiv_to_aan.py:eliminateParentheses"]}
{"id": "C58", "title": "User selection meets its document target whenever enough documents exist", "statement": "select_group_contribs returns allotments that never exceed what a group has and that add up to at least the target when the groups together hold that many; otherwise it takes everything.", "quantifier": "all group sizes and targets", "why_tests_cant": "Loop mutates the list it iterates.", "anchors": ["sidetopics/run/selectusers.py:select_group_contribs"]}
{"id": "C59", "title": "Rolled-up averages are document-weighted means", "statement": "Rolling up group averages yields the sum of value times documents divided by the documents, lying between the smallest and largest group value.", "quantifier": "all group tables", "why_tests_cant": "A unit test fixes a handful of sizes and values; the claim is about every one of them.", "anchors": ["sidetopics/run/reshape_results.py:roll_up_and_average"]}
{"id": "C60", "title": "The perplexity script and the DataSet class agree on folds", "statement": "For every corpus size and fold, both split conventions query the same documents.", "quantifier": "all sizes and folds", "why_tests_cant": "A unit test fixes a handful of sizes and values; the claim is about every one of them.", "anchors": ["sidetopics/run/perplexity_generator.py", "sidetopics/model/common.py:DataSet.cross_valid_split_indices"]}
{"id": "C61", "title": "Side-topic training returns all per-document state in the caller's document order", "statement": "After training, row d of every per-document array belongs to the d-th document passed in, although training sorts documents by length.", "quantifier": "all corpora", "why_tests_cant": "Sorting is the identity for already sorted test data.", "anchors": ["sidetopics/model/stm_yv_bohning.py:train"]}
{"id": "C62", "title": "DMR sampling never writes outside its sample buffer", "statement": "In training and in querying, every sample is stored at an index below the buffer's length.", "quantifier": "all train plans", "why_tests_cant": "Bounds checks are compiled out, so a test may pass by luck.", "anchors": ["sidetopics/model/dmr.py:train", "sidetopics/model/dmr.py:query", "sidetopics/model/dmr_fast.pyx:sample"]}
{"id": "C63", "title": "Stochastic updates keep distributions on the simplex", "statement": "Moving a distribution towards another by the step size gives a distribution for every step between zero and one, and the step-size schedule stays within (0,1].", "quantifier": "all distributions, steps and iteration numbers", "why_tests_cant": "A unit test fixes a handful of sizes and values; the claim is about every one of them.", "anchors": ["sidetopics/model/lda_vb_python.py:update_inplace_v", "sidetopics/model/lda_vb_python.py:train"]}
{"id": "C64", "title": "Topic responsibilities of the correlated models conserve tokens", "statement": "The document-topic token weights computed from a document-term matrix, unnormalised topic weights and vocabularies sum, over topics, to the document's length, and the vocabulary update leaves every topic's word distribution positive and summing to one.", "quantifier": "all corpora, positive topic weights and vocabularies, any number of updates", "why_tests_cant": "Infinitely many inputs; invariant over iterations.", "anchors": ["sidetopics/model/ctm_bohning.py:train", "sidetopics/model/stm_yv_bohning.py:train", "sidetopics/util/array_utils.py:normalizerows_ip"]}
{"id": "C65", "title": "Link columns that are not documents survive pruning", "statement": "For a link matrix whose columns are not the documents (not square), prune_and_shuffle selects rows and leaves all columns in place.", "quantifier": "all datasets with a non-square link matrix, all thresholds and shuffles", "why_tests_cant": "Only sizes that become square by accident fail.", "anchors": ["sidetopics/model/common.py:_reorder_link_matrix", "sidetopics/model/common.py:DataSet.prune_and_shuffle"]}
{"id": "C66", "title": "prune_and_shuffle works on datasets without categories and does not leave a half-changed dataset", "statement": "Pruning works for every dataset the constructor accepts; if it raises, the dataset is as before.", "quantifier": "all datasets, thresholds, shuffles", "why_tests_cant": "Every failure point must be considered.", "anchors": ["sidetopics/model/common.py:DataSet._reorder", "sidetopics/model/common.py:DataSet.prune_and_shuffle"]}
{"id": "C67", "title": "auto_convert_to_sparse converts to sparse", "statement": "A dataset constructed with automatic conversion on holds words and links in CSR form.", "quantifier": "all storage types and flag combinations", "why_tests_cant": "A unit test fixes a handful of sizes and values; the claim is about every one of them.", "anchors": ["sidetopics/model/common.py:DataSet.__init__"]}
{"id": "C68", "title": "Mirroring one triangle of a symmetric link matrix gives the matrix back", "statement": "Taking the lower triangle of a symmetric link matrix and mirroring it, as the symmetric link split does with each half, restores every value and is always symmetric.", "quantifier": "all symmetric matrices", "why_tests_cant": "Self-links are rare in test data.", "anchors": ["sidetopics/model/common.py:_symm_csr", "sidetopics/model/common.py:_split_symm"]}
{"id": "C69", "title": "The dense vec-transpose agrees with the sparse one and stays inside its buffer", "statement": "The compiled dense vec-transpose fills every cell of its output with the entry the sparse version puts there, and never writes outside it.", "quantifier": "all matrices, all p>=1", "why_tests_cant": "Writing outside a buffer seldom shows in a test.", "anchors": ["sidetopics/util/vt_fast.pyx:vec_transpose_f8r", "sidetopics/util/vectrans.py:vec_transpose"]}
{"id": "C70", "title": "A given output matrix receives the result", "statement": "When an output matrix is passed to the element-wise product with the logarithm of a dot product, it is overwritten with the result that is returned.", "quantifier": "all matrices, row ranges and element types", "why_tests_cant": "Only one combination of range and type behaves differently.", "anchors": ["sidetopics/util/sparse_elementwise.py:sparseScalarProductOfSafeLnDot"]}
{"id": "C71", "title": "The entropy of a dot product does not depend on the element type", "statement": "The interpreted fallback computes the same sum as the compiled versions.", "quantifier": "all topic and vocabulary matrices", "why_tests_cant": "The fallback is reached only by unusual element types.", "anchors": ["sidetopics/util/sparse_elementwise.py:entropyOfDot_py", "sidetopics/util/se_fast.pyx:entropyOfDot_f8"]}
{"id": "C72", "title": "The overflow-safe log(1+exp(x)) is monotone", "statement": "A larger argument never gives a smaller result.", "quantifier": "all pairs of real numbers", "why_tests_cant": "The pieces must fit together at every seam.", "anchors": ["sidetopics/util/se_fast.pyx:safe_log_one_plus_exp_f8"]}
{"id": "C73", "title": "scaledSelfSoftDot weighs each row by its scale", "statement": "The result is the sum over rows of the scale times the dot product of the row with its softmax.", "quantifier": "all matrices and scales, all element types", "why_tests_cant": "Scales of one hide the fault.", "anchors": ["sidetopics/util/sigmoid_utils.py:scaledSelfSoftDot", "sidetopics/util/sig_fast.pyx:selfSoftDot_f8_i8"]}
{"id": "C74", "title": "safe_log is the logarithm cut off below, in place or not", "statement": "safe_log gives the logarithm of everything at or above the threshold and the logarithm of the threshold below it, the same in place and out of place; safe_x_log_x is x log x for x > 0 and zero at zero.", "quantifier": "all arrays and thresholds", "why_tests_cant": "Infinitely many inputs.", "anchors": ["sidetopics/util/overflow_safe.py:safe_log", "sidetopics/util/overflow_safe.py:safe_x_log_x"]}
{"id": "C75", "title": "The weighted sum of log(1+exp) stays within the accumulated tolerance", "statement": "The compiled double loop differs from the exact weighted sum by at most the tolerance times the sum of absolute weights over all cells.", "quantifier": "all matrices and weight vectors", "why_tests_cant": "Errors accumulate with size.", "anchors": ["sidetopics/util/se_fast.pyx:scaledSumOfLnOnePlusExp_f8", "sidetopics/util/sparse_elementwise.py:scaledSumOfLnOnePlusExp"]}
{"id": "C76", "title": "selfSoftDot computes the same in compiled and interpreted form", "statement": "The compiled loops and the fallback both return the sum over rows of the dot product with the softmax, and each row contributes a value between its smallest and largest element.", "quantifier": "all matrices with at least one column", "why_tests_cant": "Infinitely many inputs.", "anchors": ["sidetopics/util/sig_fast.pyx:selfSoftDot_f8", "sidetopics/util/sigmoid_utils.py:selfSoftDot"]}
{"id": "C77", "title": "safeDet is the maximum of the determinant and a tiny positive number", "statement": "The value returned is max(det, minimum) for every determinant.", "quantifier": "all determinants", "why_tests_cant": "Three overlapping tests.", "anchors": ["sidetopics/util/overflow_safe.py:safeDet"]}
{"id": "C78", "title": "Continuing to train keeps the counts of the current assignments", "statement": "Calling train again with the model and query states returned by a previous call leaves topic counts equal to the totals of the final token-topic responsibilities.", "quantifier": "all corpora and plans", "why_tests_cant": "Doubled counts still look like a trained model.", "anchors": ["sidetopics/model/lda_cvb0.py:train"]}
{"id": "C79", "title": "CVB variances are the sums of the token variances", "statement": "After any number of sweeps each variance count equals the sum of z(1-z) over the tokens it covers.", "quantifier": "all corpora, probabilities and sweep counts, both precisions", "why_tests_cant": "Only the single precision version differs, and only in magnitude.", "anchors": ["sidetopics/model/lda_cvb_fast.pyx:iterate_f32", "sidetopics/model/lda_cvb_fast.pyx:iterate_f64", "sidetopics/model/lda_cvb_fast.pyx:calculateCounts_f64"]}
{"id": "C80", "title": "Topic totals of a model stay the sums of its word counts", "statement": "After training, and after further training of an existing model on new documents, the model total for every topic is the sum of that topic's word counts.", "quantifier": "all models and corpora", "why_tests_cant": "Needs two training runs and a comparison of internal totals.", "anchors": ["sidetopics/model/lda_cvb.py:train", "sidetopics/model/lda_cvb0.py:train"]}
{"id": "C81", "title": "Measuring the likelihood leaves the counts as they were", "statement": "The in-place normalisation done to compute the likelihood is undone exactly (in exact arithmetic).", "quantifier": "all counts and positive priors", "why_tests_cant": "A unit test fixes a handful of sizes and values; the claim is about every one of them.", "anchors": ["sidetopics/model/lda_cvb0.py:log_likelihood_point"]}
{"id": "C82", "title": "Iteration numbers reported with measurements are those of the last iteration done", "statement": "The iteration number logged with each bound and likelihood is the index of the last iteration carried out before the measurement.", "quantifier": "all iteration counts and log frequencies", "why_tests_cant": "Plots are shifted by one segment, which looks plausible.", "anchors": ["sidetopics/model/lda_cvb0.py:train", "sidetopics/model/lda_cvb.py:train"]}
{"id": "C83", "title": "Gibbs training and querying select a topic at every draw", "statement": "With positive priors, training and querying a Gibbs-sampled topic model never fail and every draw of the random generator, including zero, assigns one of the topics.", "quantifier": "all corpora, priors, plans and random draws", "why_tests_cant": "The generator returns zero about once in two thousand million draws.", "anchors": ["sidetopics/model/lda_gibbs_fast.pyx:sample", "sidetopics/model/lda_gibbs.py:train", "sidetopics/model/lda_gibbs.py:query"]}
{"id": "C84", "title": "Gibbs sampling draws from the full conditional", "statement": "A token moves to a topic exactly when the uniform draw falls into an interval whose share of the total is that topic's conditional probability given the topics of all other tokens; no other token changes.", "quantifier": "all corpora, states, priors and draws", "why_tests_cant": "A statistical test cannot tell a slightly wrong conditional from chance.", "anchors": ["sidetopics/model/lda_gibbs_fast.pyx:sample"]}
{"id": "C85", "title": "Every Gibbs sweep resamples every token exactly once", "statement": "Whatever random starting positions are drawn, a sweep visits each token of the corpus once and no other position.", "quantifier": "all document lengths and random starts", "why_tests_cant": "Wrap-around at every possible start.", "anchors": ["sidetopics/model/lda_gibbs_fast.pyx:sample"]}
{"id": "C86", "title": "Averaged Gibbs topic and word distributions are distributions", "statement": "After training or querying with any plan, each document's averaged topics and each topic's averaged words are positive and sum to one.", "quantifier": "all corpora, plans and draws", "why_tests_cant": "Depends on the number of samples that the plan happens to take.", "anchors": ["sidetopics/model/lda_gibbs.py:topicDists", "sidetopics/model/lda_gibbs.py:wordDists", "sidetopics/model/lda_gibbs.py:newTrainPlan"]}
{"id": "C87", "title": "Mixture Gibbs memberships are drawn given the other documents' current memberships", "statement": "The component weights used for a document are the counts of the other documents' current memberships plus the prior minus one, and afterwards every document belongs to one component.", "quantifier": "all corpora, priors and draws", "why_tests_cant": "The running totals are updated in place document by document.", "anchors": ["sidetopics/model/mom_gibbs.py:sample_memberships"]}
{"id": "C88", "title": "Mixture Gibbs training returns the average of its samples", "statement": "The trained model is the average of the samples taken after burn-in.", "quantifier": "all plans", "why_tests_cant": "The last sample looks like an average.", "anchors": ["sidetopics/model/mom_gibbs.py:train"]}
{"id": "C89", "title": "fit_transform is fit followed by transform for every kind of input", "statement": "fit_transform on a matrix or a dataset trains the model and returns the topics of the training documents.", "quantifier": "all inputs accepted by fit and by transform, all earlier call histories", "why_tests_cant": "Test data is always wrapped in the library's own dataset class.", "anchors": ["sidetopics/model/sklearn/lda_cvb.py:TopicModel.fit_transform", "sidetopics/model/sklearn/lda_cvb.py:TopicModel.make_or_resume_query_state"]}
{"id": "C90", "title": "It is okay to score with neither assignments nor query state", "statement": "As documented, score works when given only the data, for every scoring method.", "quantifier": "all fitted models and scoring methods", "why_tests_cant": "Tests exercise the default point methods.", "anchors": ["sidetopics/model/sklearn/lda_cvb.py:TopicModel.score"]}
{"id": "C91", "title": "Transforming and scoring leave the model alone and scoring does not affect resuming", "statement": "transform, score and the search for a query state never change the fitted model (given modules that keep their promise); a fit or transform can be resumed after scoring if it could be before.", "quantifier": "all states, data and scoring methods", "why_tests_cant": "Needs call sequences.", "anchors": ["sidetopics/model/sklearn/lda_cvb.py:TopicModel.score", "sidetopics/model/sklearn/lda_cvb.py:TopicModel.transform"]}
{"id": "C92", "title": "Finding a query state without persisting it leaves the persisted one", "statement": "find_query_state_via_transform with persist_query_state false leaves the remembered dataset and query state as they were, whether it succeeds or fails, and returns the state behind the topics that transform returns.", "quantifier": "all call histories", "why_tests_cant": "Needs a history and a comparison of hidden state.", "anchors": ["sidetopics/model/sklearn/lda_cvb.py:TopicModel.find_query_state_via_transform"]}
{"id": "C93", "title": "Training the mixture of multinomials conserves documents and words", "statement": "After training, every document's topic probabilities are positive and sum to one; the topic parameters sum to the number of documents plus the prior; the parameters of a word summed over topics are the word's corpus count plus the prior of every topic; no parameter is below its prior.", "quantifier": "all corpora, priors, starting states and iteration counts", "why_tests_cant": "Infinitely many inputs; invariant over iterations.", "anchors": ["sidetopics/model/mom_em.py:train"]}
{"id": "C94", "title": "Querying the mixture of multinomials depends on the model and the documents only", "statement": "A query gives the same topics whatever its starting state and number of iterations.", "quantifier": "all models, documents, starting states and iteration counts", "why_tests_cant": "A unit test fixes a handful of sizes and values; the claim is about every one of them.", "anchors": ["sidetopics/model/mom_em.py:query"]}
{"id": "C95", "title": "The expected log-likelihood of the mixture of multinomials is the log marginal probability", "statement": "log_likelihood_expected returns the logarithm of the probability of the documents with topics and parameters integrated out, both from the prior and from a query state.", "quantifier": "all corpora and parameters", "why_tests_cant": "Products of gamma functions over all counts.", "anchors": ["sidetopics/model/mom_em.py:log_likelihood_expected"]}
{"id": "C96", "title": "The mixture of multinomials can be trained with the default plan", "statement": "Training with the default plan succeeds.", "quantifier": "all corpora", "why_tests_cant": "Depends on whether the first iteration already converges.", "anchors": ["sidetopics/model/mom_em.py:train", "sidetopics/model/mom_em.py:var_bound"]}
{"id": "C97", "title": "The point log-likelihood of the mixture of multinomials is a log-probability", "statement": "log_likelihood_point is the sum over documents of the logarithm of the mixture probability of the document's words.", "quantifier": "all corpora and positive parameters", "why_tests_cant": "A unit test fixes a handful of sizes and values; the claim is about every one of them.", "anchors": ["sidetopics/model/mom_em.py:log_likelihood_point"]}
{"id": "C98", "title": "Perplexity is the inverse geometric mean probability", "statement": "The perplexity raised to the number of tokens times the probability of the data is one; a higher likelihood always has a lower perplexity; perplexity is at least one exactly for likelihoods that are not positive.", "quantifier": "all likelihoods and token counts", "why_tests_cant": "Infinitely many inputs.", "anchors": ["sidetopics/model/evals.py:perplexity_from_like"]}
{"id": "C99", "title": "A single-fold perplexity run does not save its model", "statement": "As documented, when only one fold is asked for the model is trained and evaluated on all documents and not saved.", "quantifier": "all corpora, trainings and save functions", "why_tests_cant": "A test sees one run; the claim is about all outcomes of training and saving.", "anchors": ["sidetopics/run/__main__.py:cross_val_and_eval_perplexity"]}
{"id": "C100", "title": "The fold options decide how many folds each evaluation runs", "statement": "With the default of the truncation option every fold is run; with a positive one exactly that many, in increasing order from fold zero.", "quantifier": "all fold counts, options and fold outcomes", "why_tests_cant": "Folds may fail in any combination; a test fixes one.", "anchors": ["sidetopics/run/__main__.py:cross_val_and_eval_tag_prec_at_m", "sidetopics/run/__main__.py:insample_lro_style_prec_rec"]}
{"id": "C101", "title": "Hashtag evaluation hides hashtags from the query documents", "statement": "As the driver calls it, hashtags of the query documents are moved from the words used for inference to the words checked.", "quantifier": "all corpora, hashtag lists and random draws", "why_tests_cant": "The split is random; a test sees one draw.", "anchors": ["sidetopics/run/__main__.py:cross_val_and_eval_hashtag_prec_at_m"]}
{"id": "C102", "title": "Hashtag precision and recall are fractions", "statement": "Precision at m is the fraction of the m highest ranked documents containing the hashtag and recall the fraction of documents with the hashtag that are among them.", "quantifier": "all corpora and rankings", "why_tests_cant": "All count matrices and rankings are covered.", "anchors": ["sidetopics/run/__main__.py:cross_val_and_eval_hashtag_prec_at_m"]}
{"id": "C103", "title": "Tag evaluation distinguishes better from worse models", "statement": "A model that scores every correct tag above every wrong one gets higher measures than one that does the opposite.", "quantifier": "all models and tag sets", "why_tests_cant": "The measures look plausible on any one model; the claim compares all models.", "anchors": ["sidetopics/run/__main__.py:cross_val_and_eval_tag_prec_at_m"]}
{"id": "C104", "title": "The popular words are the most frequent candidates", "statement": "The words returned are distinct candidates, as many as asked for or as there are, ordered by falling frequency, and no other candidate is more frequent.", "quantifier": "all corpora and candidates, any sorting of ties", "why_tests_cant": "Ties can be sorted in any order.", "anchors": ["sidetopics/run/__main__.py:popular_indices"]}
{"id": "C105", "title": "Model file names identify the model's configuration", "statement": "Two models of the same kind whose topics, features, fold or time stamp differ never share a file name; neither do two kinds of model.", "quantifier": "all names, sizes, folds and time stamps", "why_tests_cant": "Infinitely many configurations.", "anchors": ["sidetopics/run/__main__.py:newModelFile"]}
{"id": "C106", "title": "The report generator accepts the model names it documents", "statement": "Each of the documented model names selects the report and the bound it names; every other name is rejected.", "quantifier": "all model and dataset names", "why_tests_cant": "Infinitely many names.", "anchors": ["sidetopics/run/report_generator.py:run"]}
{"id": "C107", "title": "Metadata fields are closed by their own brace", "statement": "The text of a title field has no braces, so that the field ends at its closing brace, and characters other than braces are kept in place.", "quantifier": "all texts", "why_tests_cant": "Infinitely many texts.", "anchors": ["sidetopics/run/arxiv_to_aan.py:stripBraces"]}
{"id": "C108", "title": "Feature masks are read back as written", "statement": "Writing name:index pairs separated by commas and parsing the text gives the same pairs; a part without an index is an error.", "quantifier": "all lists of pairs with plain names", "why_tests_cant": "Infinitely many lists.", "anchors": ["sidetopics/run/__main__.py:parse_features_mask"]}
{"id": "C109", "title": "Scores are the likelihoods that their names describe", "statement": "Each of the six scoring methods returns the likelihood or perplexity, at a point estimate or expected, of whole or of held-out half documents, of the assignments given or inferred; contradictory arguments are errors.", "quantifier": "all wrapped modules, datasets, assignments and states", "why_tests_cant": "The wrapped module is arbitrary; a test fixes one module and one dataset.", "anchors": ["sidetopics/model/sklearn/lda_cvb.py:TopicModel.score"]}
{"id": "C110", "title": "Fit and transform run the number of iterations asked for", "statement": "A successful fit or transform ran its module with the number of iterations passed; with none or zero passed, with the wrapper's own.", "quantifier": "all wrapped modules, datasets and states", "why_tests_cant": "The wrapped module is arbitrary.", "anchors": ["sidetopics/model/sklearn/lda_cvb.py:TopicModel.fit", "sidetopics/model/sklearn/lda_cvb.py:TopicModel.transform"]}
{"id": "C111", "title": "Users are selected until each group's allotment is reached", "statement": "Users drawn from a group have at least the documents allotted to it, if the group has that many, and without the last user drawn they would have fewer; no user is drawn twice.", "quantifier": "all users, counts and allotments", "why_tests_cant": "All orders and sizes of users are covered.", "anchors": ["sidetopics/run/selectusers.py:select_users"]}
{"id": "C112", "title": "Counts read for users are the totals of their lines", "statement": "The counts returned for a user are the sums of the counts of all the user's lines in the file, exactly the users with a total strictly between the limits are returned, once each in every group they appear in, and a line that is not a group, a count and a file name is an error.", "quantifier": "all files", "why_tests_cant": "Infinitely many files.", "anchors": ["sidetopics/run/selectusers.py:read_counts"]}
{"id": "C113", "title": "Printed result tables are read back", "statement": "Reading the table that the evaluation printed gives, for every group of documents, the number of documents and the printed values, and for the combined groups their document-weighted means; the lines after the table are left unread.", "quantifier": "all scores, counts and number formats", "why_tests_cant": "Writer and reader live in different programs; a test covers one table.", "anchors": ["sidetopics/run/__main__.py:printTable", "sidetopics/run/reshape_results.py:read_table"]}
{"id": "C114", "title": "Variational training accounts for every token", "statement": "After training, a document's Dirichlet parameters are at least the prior and sum to the prior plus its length, whatever the rate algorithm; after batch training the topics' parameters for a word sum to the prior plus the word's count in the corpus; the reported topic and word distributions are positive and sum to one.", "quantifier": "all corpora, initial states, iteration counts and digamma implementations", "why_tests_cant": "Holds for all corpora and all numbers of iterations; a test fixes one.", "anchors": ["sidetopics/model/lda_vb_python.py:train", "sidetopics/model/lda_vb_python.py:topicDists", "sidetopics/model/lda_vb_python.py:wordDists"]}
{"id": "C115", "title": "Stochastic training keeps Dirichlet parameters positive", "statement": "From positive word parameters, training by mini-batches with a positive prior gives positive word parameters.", "quantifier": "all corpora, plans and positive initial parameters", "why_tests_cant": "Holds for all corpora and all numbers of iterations; a test fixes one.", "anchors": ["sidetopics/model/lda_vb_python.py:train", "sidetopics/model/lda_vb_python.py:update_inplace_v"]}
{"id": "C116", "title": "Mini-batch training gives topics the weight of the corpus", "statement": "The total weight of the topics after mini-batch training is that of the prior plus all tokens of the corpus, as it is after batch training.", "quantifier": "all corpora and batch sizes", "why_tests_cant": "Holds for all corpora and all numbers of iterations; a test fixes one.", "anchors": ["sidetopics/model/lda_vb_python.py:train"]}
{"id": "C117", "title": "The learning-rate algorithm asked for is used", "statement": "A training plan created with a rate algorithm trains by it.", "quantifier": "all plans", "why_tests_cant": "Every combination of arguments is covered.", "anchors": ["sidetopics/model/lda_vb_python.py:newTrainPlan", "sidetopics/model/lda_vb_python.py:train"]}
{"id": "C118", "title": "New models have a proper word distribution in every topic", "statement": "Creating a model ends and gives every topic a positive distribution over words that sums to one; other than 2 to 254 topics are an error.", "quantifier": "all corpora and random draws", "why_tests_cant": "Random; termination cannot be tested.", "anchors": ["sidetopics/model/lda_vb_python.py:newModelAtRandom"]}
{"id": "C119", "title": "New query states account for every token", "statement": "The initial parameters of a document are at least the prior and sum to the prior plus its length, for every corpus.", "quantifier": "all corpora and random draws", "why_tests_cant": "Random; the one-document case is easily left out.", "anchors": ["sidetopics/model/lda_vb_python.py:newQueryState"]}
{"id": "C120", "title": "TF-IDF document similarity is a cosine", "statement": "The TF-IDF similarity of two documents of a corpus is between zero and one, does not depend on their order, and is one when the two use words in the same proportions; this also holds for held-out documents and for counts of every numeric type.", "quantifier": "all corpora", "why_tests_cant": "Infinitely many corpora; a test covers one.", "anchors": ["sidetopics/model/sim_based_rec.py:link_probs_tfidf", "sidetopics/model/sim_based_rec.py:min_link_probs_tfidf", "sidetopics/model/sim_based_rec.py:train"]}
{"id": "C121", "title": "LDA document similarity ranks by Hellinger distance", "statement": "A document's candidates are ranked by the LDA similarity exactly as by the Hellinger distance of their topic distributions, nearest first; the similarity is symmetric, and lies between the value for documents without common topics and the value for documents with equal topics.", "quantifier": "all topic distributions", "why_tests_cant": "All pairs of distributions are covered.", "anchors": ["sidetopics/model/sim_based_rec.py:link_probs_lda", "sidetopics/model/sim_based_rec.py:min_link_probs_lda"]}
{"id": "C122", "title": "Link scores of the matching topic model are a distribution over targets", "statement": "For every source document the scores given to all target documents are positive and sum to one.", "quantifier": "all means, numbers of topics and documents", "why_tests_cant": "Real-valued identity over all inputs.", "anchors": ["sidetopics/model/mtm3.py:link_probs"]}
{"id": "C123", "title": "Querying a relational topic model returns topics", "statement": "Querying a trained relational topic model returns topic parameters for the query documents.", "quantifier": "all models, corpora and iteration counts", "why_tests_cant": "Every plan and corpus is covered, not only the one a test would pick.", "anchors": ["sidetopics/model/rtm.py:query", "sidetopics/model/rtm.py:train"]}
{"id": "C124", "title": "Relational training accounts for every token", "statement": "After training, the topic parameters of a document are at least the prior and sum to the prior plus the document's length, the topics' parameters for a word sum to their priors plus the word's count in the corpus, and the constant column used by the regression of links is unchanged.", "quantifier": "all linked corpora, weights and iteration counts", "why_tests_cant": "Invariant over every number of iterations.", "anchors": ["sidetopics/model/rtm.py:train", "sidetopics/model/rtm.py:_update_topics_at_d", "sidetopics/model/rtm.py:newQueryState"]}
{"id": "C125", "title": "Variational training performs the mean-field updates", "statement": "Batch training for n iterations gives the parameters obtained by n rounds of the textbook coordinate update: a token's topic distribution is proportional to the exponential of the expected log-probabilities of the word and of the topic, and the parameters are the priors plus the expected counts; in relational models the exponent also has the gradient of the log-likelihood of the document's links.", "quantifier": "all corpora, initial parameters, iteration counts and digamma implementations", "why_tests_cant": "Equality with a specification for all real inputs and every number of rounds.", "anchors": ["sidetopics/model/lda_vb_python.py:train", "sidetopics/model/lda_vb_python.py:_infer_topics_at_d", "sidetopics/model/rtm.py:_update_topics_at_d", "sidetopics/model/rtm.py:_sum_of_scores_at_d"]}
{"id": "C126", "title": "Regression-topic sampling keeps its tallies and reports distributions", "statement": "After training or querying a Dirichlet-multinomial regression model the count arrays equal the tallies of the current assignment, the number of samples is that of the plan, and the reported topic and word distributions are non-negative and sum to one.", "quantifier": "all corpora, features, plans and random draws", "why_tests_cant": "Every draw, plan and feature matrix is covered.", "anchors": ["sidetopics/model/dmr.py:train", "sidetopics/model/dmr.py:query", "sidetopics/model/dmr.py:topicDists", "sidetopics/model/dmr.py:wordDists", "sidetopics/model/dmr_fast.pyx:sample"]}
{"id": "C127", "title": "Every counted sample is stored for the weight update", "statement": "When the regression weights are fitted, each of the samples that are counted is present in the array of samples, with topic counts that sum to the document's length.", "quantifier": "all plans and corpora", "why_tests_cant": "Depends on the number of rounds of an entire run.", "anchors": ["sidetopics/model/dmr.py:train", "sidetopics/model/dmr.py:updateWeights", "sidetopics/model/dmr_fast.pyx:sample"]}
{"id": "C128", "title": "Topics are sampled under the prior that the weights are fitted for", "statement": "The prior over a document's topics used in sampling is the one in the objective by which the weights are fitted.", "quantifier": "all features and weights", "why_tests_cant": "Equality of real functions for all inputs.", "anchors": ["sidetopics/model/dmr.py:train", "sidetopics/model/dmr.py:objective"]}
{"id": "C129", "title": "Querying a regression topic model leaves its word distributions alone", "statement": "The word distributions of the model returned by a query are those of the model queried.", "quantifier": "all models and plans", "why_tests_cant": "Depends on the numbers of samples of two runs.", "anchors": ["sidetopics/model/dmr.py:query", "sidetopics/model/dmr.py:wordDists"]}
{"id": "C130", "title": "The regression weights are fitted to the posterior with its exact gradient", "statement": "As a function of one topic's weights, the objective is the negative log posterior of all weights given the samples, up to a constant; the gradient returned is its derivative; neither depends on the batch size.", "quantifier": "all features, samples, weights, numbers of documents and batch sizes", "why_tests_cant": "Equality of real functions and a derivative for all inputs.", "anchors": ["sidetopics/model/dmr.py:objective", "sidetopics/model/dmr.py:gradient"]}
{"id": "C131", "title": "Querying a correlated topic model never makes a document's topics less probable", "statement": "Starting from any topic means, each iteration of a query (with full covariances) gives every document means whose posterior probability, given the document's words, the model's word distributions and the normal prior, is at least as high as before, by at least half the squared size of the step; means that an iteration does not change are a stationary point.", "quantifier": "all corpora, models with symmetric positive semi-definite precision, starting means, numbers of iterations and stopping decisions", "why_tests_cant": "An inequality over the reals for all inputs, by a bound on the log-sum-exp function; tests can only sample it.", "anchors": ["sidetopics/model/ctm_bohning.py:query", "sidetopics/model/stm_yv_bohning.py:query"]}
{"id": "C132", "title": "Training a correlated topic model never lowers the joint probability", "statement": "Each training iteration with full covariances gives word distributions, topic means and prior mean whose joint probability with the words is at least as high as before.", "quantifier": "all corpora of two or more documents, smoothing constants, starting points and numbers of iterations", "why_tests_cant": "An inequality over the reals for whole training runs.", "anchors": ["sidetopics/model/ctm_bohning.py:train"]}
{"id": "C133", "title": "Training a correlated topic model estimates the covariance of topics", "statement": "The covariance in the trained model is the sample covariance of the documents' topic means plus their mean variance.", "quantifier": "all corpora and plans", "why_tests_cant": "Tests of likelihood do not see the covariance.", "anchors": ["sidetopics/model/ctm_bohning.py:train"]}
{"id": "C134", "title": "A correlated-topic query returns what it inferred", "statement": "The means and variances in the returned query state are those of the last iteration, whether or not the plan asks for the fast approximation.", "quantifier": "all models, corpora, plans", "why_tests_cant": "Depends on which arrays are written in place.", "anchors": ["sidetopics/model/ctm_bohning.py:query"]}
{"id": "C135", "title": "Correlated topic models accept corpora of one document", "statement": "Training and querying succeed for every corpus with at least one document.", "quantifier": "all corpora", "why_tests_cant": "Tests use many documents.", "anchors": ["sidetopics/model/ctm_bohning.py:train", "sidetopics/model/ctm_bohning.py:query", "sidetopics/model/ctm_bohning.py:newQueryState"]}
{"id": "C136", "title": "Each step of side-topic training makes every document's topics more probable", "statement": "In side-topic training, after the first inner step, every inner step gives each document topic means whose posterior probability, under the vocabulary and covariance of that step and a prior mean predicted from the document's features, is at least as high as before; the covariance stays positive definite, and vocabularies stay distributions.", "quantifier": "all corpora, features, starting states, numbers of steps", "why_tests_cant": "An inequality over the reals for all inputs and states of the loop.", "anchors": ["sidetopics/model/stm_yv_bohning.py:train"]}
{"id": "C137", "title": "Side-topic training counts each occurrence of a word once", "statement": "In each vocabulary update of side-topic training the expected counts of a word, summed over topics, are the number of its occurrences in the corpus.", "quantifier": "all corpora and states of the loop", "why_tests_cant": "The error vanishes as training converges, so outcomes look plausible.", "anchors": ["sidetopics/model/stm_yv_bohning.py:train"]}
{"id": "C138", "title": "The scores reported for link prediction are means over everything evaluated", "statement": "After an in-sample link evaluation over several folds, the final mean average precision and the tables of precision and recall are those of the documents of all folds together, and the final mean reciprocal rank is the mean over all retrieved links; the evaluation finishes whichever numbers of links the documents have.", "quantifier": "all numbers of folds, documents, expected and predicted links", "why_tests_cant": "Tests would need the pooled result of every partition.", "anchors": ["sidetopics/run/__main__.py:insample_lro_style_prec_rec", "sidetopics/eval/__init__.py:combine_map"]}
{"id": "C139", "title": "Link prediction for unseen features never trains on what it asks about", "statement": "Given a list of features, each on or off for a document, round i of an out-of-sample evaluation trains on exactly the documents with none of the features i, i+1, ... and asks for the links, to the documents trained on, of exactly those with feature i; no queried document was trained on in that or an earlier round; the final mean average precision and tables are over all queried documents.", "quantifier": "all datasets, feature lists, models", "why_tests_cant": "Concerns every round of runs over arbitrary features.", "anchors": ["sidetopics/run/__main__.py:outsample_lro_style_prec_rec", "sidetopics/model/common.py:split_on_feature"]}
{"id": "C140", "title": "A saved LDA model gives recommenders the topics of their documents", "statement": "When a saved LDA model is accepted for a dataset, row d of its topics belongs to document d, and each round of an evaluation is given the rows of its training documents; models of other or differently ordered documents are refused; without a saved model the recommender is evaluated with an LDA of its own.", "quantifier": "all datasets, saved models, folds", "why_tests_cant": "Depends on how the saving run was split.", "anchors": ["sidetopics/run/__main__.py:load_and_adapt_lda_model", "sidetopics/run/__main__.py:subsetLda", "sidetopics/run/__main__.py:save_model"]}
{"id": "C141", "title": "Folds computed in floating point are right", "statement": "For every corpus of fewer than 2^53 documents and every number of folds up to 2^53, rounding the quotient documents/folds to a double does not change any fold: the training and query documents are those of exact arithmetic.", "quantifier": "all document counts, fold numbers and fold counts", "why_tests_cant": "Rounding up could only go wrong at particular, very large, sizes.", "anchors": ["sidetopics/model/common.py:cross_valid_split_indices"]}
{"id": "C142", "title": "Ranking metrics computed in floating point are fractions close to the true ones", "statement": "Mean average precision and mean reciprocal rank as computed in doubles lie between zero and one, differ from the exact values by at most a multiple of 2^-53 that grows with the numbers of links and documents, and fail when the exact ones do; when all documents have links and all of them are ranked first, the mean average precision is exactly one.", "quantifier": "all rankings, expected links, numbers of documents", "why_tests_cant": "Rounding errors depend on all the numbers added up.", "anchors": ["sidetopics/model/evals.py:mean_average_prec", "sidetopics/model/evals.py:mean_reciprocal_rank"]}
{"id": "C143", "title": "Document completion in floating point conserves every token", "statement": "For counts and jitters up to 2^51 in size and a proportion between zero and one, splitting the counts of documents in doubles loses and invents no token: each split is one that exact arithmetic could have made from some jitter.", "quantifier": "all corpora without features, jitters, proportions", "why_tests_cant": "Concerns every count and every random jitter.", "anchors": ["sidetopics/model/common.py:doc_completion_split"]}
{"id": "C144", "title": "Fast LDA inference solves the mean-field equations", "statement": "The topic counts that the compiled LDA infers for a document satisfy the mean-field equations: they are the prior plus the expected topic counts of the tokens, where those expectations are taken under the inferred counts themselves.", "quantifier": "all vocabularies, documents, priors, corpus sizes", "why_tests_cant": "The result looks plausible; that the inner loop never uses its own result only shows in the equations.", "anchors": ["sidetopics/model/lda_vb_fast.pyx:infer_topics_f32", "sidetopics/model/lda_vb_fast.pyx:infer_topics_f64"]}
{"id": "C145", "title": "Topics of a document depend only on the document and the model", "statement": "Querying a fixed model for a document gives the same topics whatever the other documents are and however many of them are queried together, in whichever order its tokens are stored, from whichever starting point, and for any positive number of iterations.", "quantifier": "all models, corpora, token orders, iterations", "why_tests_cant": "Tests query one corpus; the influence of the corpus size only appears when the same document is queried in two corpora.", "anchors": ["sidetopics/model/lda_vb.py:query", "sidetopics/model/lda_vb_fast.pyx:query_f64"]}
{"id": "C146", "title": "Topic counts add up to prior plus tokens", "statement": "The topic counts returned for a document add up to the sum of its topic prior and the number of its tokens, and every token has a distribution over topics.", "quantifier": "all models, documents, priors", "why_tests_cant": "The counts are normalised before they are shown.", "anchors": ["sidetopics/model/lda_vb_fast.pyx:infer_topics_f64"]}
{"id": "C147", "title": "Fast LDA training conserves words", "statement": "After any positive number of iterations the counts of a word over all topics add up to its number of occurrences plus one word prior per topic; no count is below the prior; and the words counted for a topic are as many as the documents attribute to it.", "quantifier": "all corpora, models, iterations", "why_tests_cant": "Concerns the sums of all arrays after every iteration.", "anchors": ["sidetopics/model/lda_vb_fast.pyx:iterate_f32"]}
{"id": "C148", "title": "Looking at a fast LDA model does not change it", "statement": "Asking for the word distributions, the bound or the likelihood leaves later queries of the model unchanged.", "quantifier": "all models, queries", "why_tests_cant": "A test would have to query before and after looking.", "anchors": ["sidetopics/model/lda_vb.py:wordDists", "sidetopics/model/lda_vb.py:topicDists", "sidetopics/model/lda_vb.py:var_bound"]}
{"id": "C149", "title": "How often progress is logged has no influence on training", "statement": "Two training runs with the same number of iterations, neither of which converges early, return the same model for any two logging frequencies.", "quantifier": "all corpora, models, frequencies", "why_tests_cant": "Tests do not train twice with different logging.", "anchors": ["sidetopics/model/lda_vb.py:train", "sidetopics/model/lda_svb.py:train"]}
{"id": "C150", "title": "A trained fast LDA model can be queried", "statement": "If training in some precision returns a model then the model can be queried in that precision.", "quantifier": "all corpora, plans, precisions", "why_tests_cant": "Needs every combination of precision, plan and convergence.", "anchors": ["sidetopics/model/lda_vb.py:query", "sidetopics/model/lda_vb.py:train", "sidetopics/model/lda_svb.py:train"]}
{"id": "C151", "title": "Stochastic training learns from the data", "statement": "Stochastic training with batches lets the words of the corpus influence the topics; without batches it is the same as plain training.", "quantifier": "all corpora, batch sizes, step sizes, iterations", "why_tests_cant": "The bound still changes as the topics of documents do, so a test of progress passes.", "anchors": ["sidetopics/model/lda_vb_fast.pyx:iterate_f64", "sidetopics/model/lda_svb.py:train"]}
{"id": "C152", "title": "The bound is determined by the model and the data", "statement": "Computing the variational bound twice for the same model, topics and data gives the same number, whatever was in memory before.", "quantifier": "all models, corpora, contents of uninitialised memory", "why_tests_cant": "Depends on the previous contents of memory, which are often zero in a test.", "anchors": ["sidetopics/model/lda_vb.py:var_bound"]}
{"id": "C153", "title": "A matrix-variate topic model can be trained", "statement": "Training mtm_vb for at least one iteration on linked documents returns a trained model; if it fails the model passed in is as it was.", "quantifier": "all corpora, models, iterations", "why_tests_cant": "Needs every shape of corpus: whether the compiled code refuses an array depends on its memory order.", "anchors": ["sidetopics/model/mtm2.py:train", "sidetopics/util/sparse_elementwise.py:sparseScalarQuotientOfDot"]}
{"id": "C154", "title": "Topics of mtm2_vb are distributions and never fit worse", "statement": "After any number of training iterations every topic of mtm2_vb is a positive distribution over words, and the vocabulary update of every iteration does not lower the penalised likelihood of the words.", "quantifier": "all corpora, links, models, iterations, stopping decisions", "why_tests_cant": "Ranges over all iterations and corpora.", "anchors": ["sidetopics/model/mtm3.py:train"]}
{"id": "C155", "title": "Covariances of mtm2_vb stay positive definite", "statement": "Training mtm2_vb keeps the topic covariance symmetric and positive definite and all variances positive; every matrix that it inverts has these properties, so training succeeds.", "quantifier": "all corpora of two or more documents, links, models, iterations", "why_tests_cant": "Singularity only occurs for particular values; a test sees one path.", "anchors": ["sidetopics/model/mtm3.py:train"]}
{"id": "C156", "title": "Links are attributed to topics by their probabilities", "statement": "During training of mtm2_vb every link, at both of its ends, is shared out among topics in proportion to the probability that the link has the topic.", "quantifier": "all links and means", "why_tests_cant": "The totals agree, so only the shares of asymmetric links tell.", "anchors": ["sidetopics/model/mtm3.py:train"]}
{"id": "C157", "title": "Training mtm2_vb improves the topics of documents", "statement": "In every iteration the new out-topics of a document have at least the posterior density of the old ones given its words, its links, and the current priors.", "quantifier": "all corpora, links, models, documents", "why_tests_cant": "Monotonicity for all inputs.", "anchors": ["sidetopics/model/mtm3.py:train"]}
{"id": "C158", "title": "Training mtm2_vb does not worsen the topics that attract links", "statement": "In every iteration the new in-topics of the documents have at least the posterior density of the old ones given the links and out-topics; without links they become the out-topics.", "quantifier": "all links, models", "why_tests_cant": "The bound is only watched as a whole.", "anchors": ["sidetopics/model/mtm3.py:train"]}
{"id": "C159", "title": "The document covariance chosen for mtm2_vb is used", "statement": "Training mtm2_vb uses and keeps the document covariance with which the model was created.", "quantifier": "all models, corpora", "why_tests_cant": "Training proceeds with any value.", "anchors": ["sidetopics/model/mtm3.py:train", "sidetopics/model/mtm3.py:newModelAtRandom"]}
{"id": "C160", "title": "Queries of mtm2_vb infer topics from words", "statement": "A query of mtm2_vb leaves the model alone and does not lower the posterior density of a document's topics given its words; a document without words gets the prior's mean and variance; links do not change the answer.", "quantifier": "all models, documents, links, iterations", "why_tests_cant": "Needs documents that differ in links only, and empty documents.", "anchors": ["sidetopics/model/mtm3.py:query"]}
{"id": "C161", "title": "Queries of mtm_vb improve, and can be resumed", "statement": "A query of mtm_vb returns means at least as probable as those it started from, and two queries in a row give what one query of as many iterations gives, as for the correlated topic model.", "quantifier": "all models, documents, iterations", "why_tests_cant": "Compares runs of different length for all inputs.", "anchors": ["sidetopics/model/mtm2.py:query", "sidetopics/model/ctm_bohning.py:query"]}
{"id": "C162", "title": "The log-likelihood of the matrix-variate models is that of words and links", "statement": "The log-likelihood reads only inside its arrays and is the sum over words and links of the logarithms of their probabilities.", "quantifier": "all corpora, links, means, numbers of documents and topics", "why_tests_cant": "The transposed reading stays within the array for most sizes and gives numbers of the right magnitude.", "anchors": ["sidetopics/model/mtm3.py:log_likelihood", "sidetopics/model/mtm2.py:log_likelihood", "sidetopics/util/se_fast.pyx"]}
{"id": "C163", "title": "Uncertainty of documents' topics under Bouchard's bound", "statement": "After training or querying ctm_bouchard or stm_yv_bouchard every document's topic variances are positive and at most the prior's, and equal to it if the document has no words.", "quantifier": "all corpora, models, iterations, early stopping decisions", "why_tests_cant": "Ranges over all iterations and all corpora.", "anchors": ["sidetopics/model/ctm.py:train", "sidetopics/model/ctm.py:query", "sidetopics/model/stm_yv.py:train", "sidetopics/model/stm_yv.py:query"]}
{"id": "C164", "title": "Topics of the Bouchard models are distributions and never fit worse", "statement": "After training ctm_bouchard or stm_yv_bouchard every topic is a positive distribution over words, and the vocabulary update of each iteration does not lower the penalised likelihood of the words.", "quantifier": "all corpora, models, iterations", "why_tests_cant": "Ranges over all iterations and corpora.", "anchors": ["sidetopics/model/ctm.py:train", "sidetopics/model/stm_yv.py:train"]}
{"id": "C165", "title": "Bouchard's bound holds and the topics of documents improve it", "statement": "The coefficients that the code computes give an upper bound of log-sum-exp for all offsets and tangents, and each update of means and variances by training (and by queries of stm_yv_bouchard) does not lower the resulting lower bound of a document; for ctm_bouchard up to a shift of the means.", "quantifier": "all means, tangents, offsets, priors, word counts", "why_tests_cant": "An inequality over reals and a monotonicity property of all states.", "anchors": ["sidetopics/model/ctm.py:negJakkola", "sidetopics/model/ctm.py:train", "sidetopics/model/stm_yv.py:train", "sidetopics/model/stm_yv.py:query"]}
{"id": "C166", "title": "Iterations of a query do not lower the bound", "statement": "One iteration of a query of stm_yv_bouchard, which updates means, variances and tangents, does not lower the lower bound of a document.", "quantifier": "all models, documents, states", "why_tests_cant": "The bound usually rises; only particular variances show a fall.", "anchors": ["sidetopics/model/stm_yv.py:query", "sidetopics/model/ctm.py:_deriveXi"]}
{"id": "C167", "title": "The offset of the bound is the best one", "statement": "The offset that a query of ctm_bouchard returns makes the bound for the returned topics the tightest.", "quantifier": "all numbers of topics, models, documents", "why_tests_cant": "Any offset gives a valid bound; that a better one exists does not show.", "anchors": ["sidetopics/model/ctm.py:query"]}
{"id": "C168", "title": "Topic numbers mean nothing", "statement": "Training ctm_bouchard from a start with two topics exchanged gives the same model with these topics exchanged.", "quantifier": "all starts, corpora", "why_tests_cant": "Runs start at random; a relation between two runs.", "anchors": ["sidetopics/model/ctm.py:train"]}
{"id": "C169", "title": "Any number of iterations can be asked for", "statement": "Training ctm_bouchard or stm_yv_bouchard for any positive number of iterations, logging at any interval or never, returns a model.", "quantifier": "all numbers of iterations and logging intervals", "why_tests_cant": "The common multiples of ten work.", "anchors": ["sidetopics/model/ctm.py:train", "sidetopics/model/stm_yv.py:train", "sidetopics/model/ctm.py:newTrainPlan"]}
{"id": "C170", "title": "Queries of the Bouchard models do not make topics less probable", "statement": "A query of ctm_bouchard or stm_yv_bouchard returns means at least as probable given the words and the prior as those it started from, as queries of the other correlated topic models do.", "quantifier": "all models, documents, iterations", "why_tests_cant": "Needs a state at the optimum to start from.", "anchors": ["sidetopics/model/ctm.py:query", "sidetopics/model/stm_yv.py:query"]}
{"id": "C171", "title": "The reported bound is a bound", "statement": "The bound that training ctm_bouchard reports is a lower bound of the log-probability of the words, so never positive.", "quantifier": "all corpora, models, states", "why_tests_cant": "Positive values need documents with large negative means.", "anchors": ["sidetopics/model/ctm.py:var_bound"]}
{"id": "C172", "title": "Documents without words get the prior's topics", "statement": "A query for a document without words returns the topic mean of ctm_bouchard, or what the features predict for stm_yv_bouchard, with the prior's variances, whatever it started from.", "quantifier": "all models, starts, iterations", "why_tests_cant": "Ranges over all starts and iterations.", "anchors": ["sidetopics/model/ctm.py:query", "sidetopics/model/stm_yv.py:query"]}
{"id": "C173", "title": "The regression of stm_yv_bouchard is the least-squares optimum", "statement": "Each iteration sets the feature weights, the topic factor and the feature factor to the exact minimisers of their regularised least-squares problems.", "quantifier": "all corpora, features, models", "why_tests_cant": "Optimality over all alternatives.", "anchors": ["sidetopics/model/stm_yv.py:train"]}
{"id": "C174", "title": "Debugging output and corpus size do not decide whether the Bouchard models run", "statement": "Training and querying ctm_bouchard and stm_yv_bouchard works for one document as for several, and with debugging on as without.", "quantifier": "all models, corpora, plans", "why_tests_cant": "Tests use several documents and leave debugging off.", "anchors": ["sidetopics/model/stm_yv.py:_debug_with_bound", "sidetopics/model/stm_yv.py:train", "sidetopics/model/ctm.py:newQueryState"]}
{"id": "C175", "title": "Batch training gives finite topics", "statement": "Training stm_yv_bohning_fake_online returns finite means and positive finite variances for every document, and topics that are positive distributions.", "quantifier": "all corpora, features, models, iterations", "why_tests_cant": "Depends on how document lengths fall into batches; ranges over all corpora.", "anchors": ["sidetopics/model/stm_yv_bohning_fake_online.py:train"]}
{"id": "C176", "title": "Batch training stays within its buffers", "statement": "Training stm_yv_bohning_fake_online, whose compiled loop has no bounds checks, touches no memory outside its arrays.", "quantifier": "all corpora, of any size", "why_tests_cant": "Corpora of more than the buffer's 100000 documents are not tried, and reading out of bounds need not crash.", "anchors": ["sidetopics/model/stm_yv_bohning_fake_online.py:train"]}
{"id": "C177", "title": "Batch training makes topics more probable", "statement": "For documents of one length, each update of the means in stm_yv_bohning_fake_online does not lower the posterior probability of the documents' topics.", "quantifier": "all corpora, states, models", "why_tests_cant": "A monotonicity property of all states.", "anchors": ["sidetopics/model/stm_yv_bohning_fake_online.py:train"]}
{"id": "C178", "title": "Batch training's vocabularies never fit worse", "statement": "Each iteration of stm_yv_bohning_fake_online gives a vocabulary that fits the words, with the prior, at least as well as the one before.", "quantifier": "all corpora, models, iterations", "why_tests_cant": "Only particular starts show a fall.", "anchors": ["sidetopics/model/stm_yv_bohning_fake_online.py:train"]}
{"id": "C179", "title": "Trained states can be used for queries", "statement": "The query state that training stm_yv_bohning_fake_online returns can be passed to query.", "quantifier": "all corpora, plans", "why_tests_cant": "Ranges over all corpora: only one number of documents works.", "anchors": ["sidetopics/model/stm_yv_bohning_fake_online.py:train", "sidetopics/model/stm_yv_bohning_fake_online.py:query"]}
{"id": "C180", "title": "Batch training reports its measurements", "statement": "Training stm_yv_bohning_fake_online for any positive number of iterations returns as many values and likelihoods as logged iterations.", "quantifier": "all numbers of iterations, logging intervals, early stopping decisions", "why_tests_cant": "The common multiples work; early stopping depends on the corpus.", "anchors": ["sidetopics/model/stm_yv_bohning_fake_online.py:train"]}
{"id": "C181", "title": "Queries of the batch model do not make topics less probable", "statement": "A query of stm_yv_bohning_fake_online returns means at least as probable given words and prior as those it started from, with the variances of the bound.", "quantifier": "all models, documents, iterations", "why_tests_cant": "A monotonicity property of all states.", "anchors": ["sidetopics/model/stm_yv_bohning_fake_online.py:query"]}
{"id": "C182", "title": "The model with a prior over weights as a matrix can be trained", "statement": "Training stm_uv_vec_y_bohning (offered by the command line as stm_uyv_bohning) returns a model.", "quantifier": "all corpora, features, numbers of topics and of iterations, whatever the linear algebra gives", "why_tests_cant": "A test shows one failure; here it is shown that no input avoids it.", "anchors": ["sidetopics/model/stm_uv_vec_y_bohning.py:train", "sidetopics/model/stm_uv_vec_y_bohning.py:unvec"]}
{"id": "C183", "title": "New query states of that model can be used", "statement": "A query state made by newQueryState of stm_uv_vec_y_bohning can be passed to query and topicDists.", "quantifier": "all states, models", "why_tests_cant": "No input avoids the failure.", "anchors": ["sidetopics/model/stm_uv_vec_y_bohning.py:query", "sidetopics/model/stm_uv_vec_y_bohning.py:topicDists", "sidetopics/model/stm_uv_vec_y_bohning.py:newQueryState"]}
{"id": "C184", "title": "Matrices as vectors and back", "statement": "vec lists a matrix column by column, and unvec with the same number of rows gives the matrix back.", "quantifier": "all matrices", "why_tests_cant": "Ranges over all shapes and entries.", "anchors": ["sidetopics/model/stm_uv_vec_y_bohning.py:vec", "sidetopics/model/stm_uv_vec_y_bohning.py:unvec"]}
{"id": "C185", "title": "The learned prior over topics fits the corpus better", "statement": "Updates of the prior over topics in rtm, and in lda_vb_python with hyperparameter updates, do not lower the likelihood of the topics of the documents; the prior can grow where the topics are spread evenly.", "quantifier": "all corpora, states, iterations, increasing digamma functions", "why_tests_cant": "The prior changes every few iterations by small amounts; only a statement over all corpora shows that it only ever falls.", "anchors": ["sidetopics/model/rtm.py:_updateTopicHyperParamsFromMeans", "sidetopics/model/lda_vb_python.py:_updateTopicHyperParamsFromMeans", "sidetopics/model/rtm.py:train"]}
{"id": "C186", "title": "Stronger regularisation makes weights smaller", "statement": "A larger regularizer of rtm gives smaller weights for predicting links.", "quantifier": "all corpora, regularizers, weights", "why_tests_cant": "Ranges over all strengths; the default looks plausible.", "anchors": ["sidetopics/model/rtm.py:_infer_weights", "sidetopics/model/rtm.py:newModelAtRandom"]}
{"id": "C187", "title": "Weights of rtm follow the gradient", "statement": "Each step of the weights of rtm follows the gradient of the log-probability of the links and of the absence of links between as many pairs as pseudoNegCount says.", "quantifier": "all corpora, weights, priors, distributions shaped like the normal one", "why_tests_cant": "A statement about derivatives.", "anchors": ["sidetopics/model/rtm.py:_infer_weights"]}
{"id": "C188", "title": "Invented unlinked documents are documents", "statement": "The pair that stands for unlinked documents in rtm has in common what two documents with the topics of the prior have in common.", "quantifier": "all priors, documents", "why_tests_cant": "Ranges over all priors and documents.", "anchors": ["sidetopics/model/rtm.py:_infer_weights"]}
{"id": "C189", "title": "Priors of rtm can be given as documented", "statement": "newModelAtRandom of rtm takes a prior that is a number or a vector with an entry for each topic, and newQueryState makes a state for the model.", "quantifier": "all priors, numbers of topics", "why_tests_cant": "A test shows one failure; here it is shown that no documented argument works.", "anchors": ["sidetopics/model/rtm.py:newModelAtRandom", "sidetopics/model/rtm.py:newQueryState"]}
{"id": "C190", "title": "Priors estimated by the Gibbs sampler are positive numbers", "statement": "With hyperparameter updates switched on, lda_gibbs estimates priors that are positive finite numbers which depend only on the counts.", "quantifier": "all counts, whatever uninitialised memory holds", "why_tests_cant": "What uninitialised memory holds cannot be chosen in a test.", "anchors": ["sidetopics/model/lda_gibbs_fast.pyx:inferPolyaHyper", "sidetopics/model/lda_gibbs_fast.pyx:inferPolyaHyperSingle"]}
{"id": "C191", "title": "The bound of lda_vb_python is a lower bound of the log probability of the corpus", "statement": "What var_bound of lda_vb_python returns is at most the log probability of the words of the corpus under latent Dirichlet allocation with the model's priors, and so never positive.", "quantifier": "all corpora of whole counts, priors, model and query states", "why_tests_cant": "The probability of a corpus is a sum over all assignments of topics, which cannot be computed for corpora of any size.", "anchors": ["sidetopics/model/lda_vb_python.py:var_bound", "sidetopics/model/lda_vb_python.py:_dirichletEntropy"]}
{"id": "C192", "title": "Word priors work for training and for the bound", "statement": "A word prior that is a number or a vector, as documented, can be used to train a model of lda_vb_python and to find its bound.", "quantifier": "all priors, corpora, models", "why_tests_cant": "Tests use a Python float; the claim is about every kind of prior.", "anchors": ["sidetopics/model/lda_vb_python.py:newModelAtRandom", "sidetopics/model/lda_vb_python.py:train", "sidetopics/model/lda_vb_python.py:var_bound"]}
{"id": "C193", "title": "Batch training of lda_vb_python does not lower the bound", "statement": "var_bound after batch training, for any number of iterations, is no less than before, up to the error of safe_log.", "quantifier": "all corpora, priors, initial states, numbers of iterations", "why_tests_cant": "Single runs going up do not show that none goes down.", "anchors": ["sidetopics/model/lda_vb_python.py:train", "sidetopics/model/lda_vb_python.py:var_bound"]}
{"id": "C194", "title": "The figures of the collapsed models are bounds and rank states like bounds", "statement": "var_bound of lda_cvb and log_likelihood_expected of lda_cvb0 are at most the log probability of the corpus, and greater for the states that make a better bound.", "quantifier": "all corpora, priors, states", "why_tests_cant": "The exact bound is a sum over all assignments of topics.", "anchors": ["sidetopics/model/lda_cvb.py:var_bound", "sidetopics/model/lda_cvb0.py:log_likelihood_expected", "sidetopics/model/lda_cvb_fast.pyx:jagged_entropy_f64", "sidetopics/model/lda_cvb0_fast.pyx:jagged_entropy_f64"]}
{"id": "C195", "title": "The bound of lda_vb is a lower bound whatever memory holds", "statement": "What var_bound of lda_vb returns is at most the log probability of the words, and never positive, also where it depends on uninitialised memory.", "quantifier": "all corpora, priors, states, memory contents", "why_tests_cant": "Memory contents cannot be chosen, and the probability of a corpus cannot be computed.", "anchors": ["sidetopics/model/lda_vb.py:var_bound"]}
{"id": "C196", "title": "Gibbs training samples from the posterior: it leaves it unchanged", "statement": "If the topics of the tokens are distributed as their posterior given the words under latent Dirichlet allocation, then they still are after any number of sweeps of Gibbs training, wherever each document is started.", "quantifier": "all corpora, priors, numbers of topics up to 256, numbers of sweeps, starting points", "why_tests_cant": "Samples are random: a test cannot tell the distribution of the assignments of a corpus from one near it.", "anchors": ["sidetopics/model/lda_gibbs_fast.pyx:sample"]}
{"id": "C197", "title": "Gibbs training forgets where it started", "statement": "Whatever the first assignment, the distribution of the topics after enough sweeps of training is as close as one likes to their posterior given the words.", "quantifier": "all corpora, priors, first assignments, starting points, tolerances", "why_tests_cant": "Convergence is a statement about a limit of distributions.", "anchors": ["sidetopics/model/lda_gibbs_fast.pyx:sample", "sidetopics/model/lda_gibbs.py:train"]}
{"id": "C198", "title": "What Gibbs training averages converges to the posterior mean", "statement": "The mean-square error of the topic and word distributions that training returns, as estimates of their posterior means, is at most a constant over the number of samples, for any thinning and first assignment; the posterior mean of a topic in a document is the probability that one more token of the document has that topic.", "quantifier": "all corpora, priors, first assignments, thinnings, numbers of samples", "why_tests_cant": "The mean-square error is an average over all runs.", "anchors": ["sidetopics/model/lda_gibbs_fast.pyx:sample", "sidetopics/model/lda_gibbs.py:topicDists", "sidetopics/model/lda_gibbs.py:wordDists"]}
{"id": "C199", "title": "Gibbs queries sample topics from their posterior given the model's word distributions", "statement": "Sweeps of a query leave unchanged, and converge to, the posterior of the topics of the query given its words and the word distributions of the model.", "quantifier": "all models, queries, first assignments", "why_tests_cant": "Samples are random: a small bias is not visible in them.", "anchors": ["sidetopics/model/lda_gibbs.py:query", "sidetopics/model/lda_gibbs_fast.pyx:sample"]}
{"id": "C200", "title": "Training a mixture of multinomials raises a bound on the probability of the corpus", "statement": "Each step of training a mixture by EM, on the topics of the documents and on the model, is the best possible for the variational bound of the mixture with Dirichlet priors on its topics and words; so training never lowers the bound, which stays below the log probability of the corpus; a query gives the best topics for the model.", "quantifier": "all corpora, priors, models, numbers of iterations", "why_tests_cant": "The probability of a corpus is a sum over all assignments of topics to documents; tests can only compare numbers training itself reports.", "anchors": ["sidetopics/model/mom_em.py:train", "sidetopics/model/mom_em.py:query", "sidetopics/model/mom_em.py:log_likelihood_point"]}
{"id": "C201", "title": "A query of a mixture of multinomials samples from the law of the components given the words", "statement": "The sweeps of a query visit the documents in turn; they keep the law of the components given the words, forget where they started, and the averages that the query returns tend to the probability that a document is in a component, with a mean square error of at most a constant over the number of samples; the law is that of the model's prior.", "quantifier": "all corpora, models, priors above one, plans", "why_tests_cant": "The law of a Markov chain, its limit and the error of averages along it are not observable in any finite run.", "anchors": ["sidetopics/model/mom_gibbs.py:query", "sidetopics/model/mom_gibbs.py:sample_memberships"]}
{"id": "C202", "title": "Documents of a mixture gather in components", "statement": "A document joins a component with a probability in proportion to the probability of its words there times the members the component has besides it, plus the prior; so with the same words the larger component is likelier, and the prior that the model takes when none is given works for every number of components.", "quantifier": "all corpora, models, memberships, numbers of components", "why_tests_cant": "Tests of a sampler see single draws; that the chance of a component falls with its members shows in no single run.", "anchors": ["sidetopics/model/mom_gibbs.py:newModelAtRandom", "sidetopics/model/mom_gibbs.py:sample_memberships", "sidetopics/model/mom_gibbs.py:query"]}
{"id": "C203", "title": "The scale that latent random offsets learn fits the links best", "statement": "Training latent random offsets sets the scale to the one value that minimises the weighted squares of the differences between links and scaled products of topics and offsets, for the offsets it has then; the scale is best for the offsets it is returned with, positive, and weighs pairs by the inverse of the variances given for them.", "quantifier": "all corpora, links, topics, numbers of iterations", "why_tests_cant": "Optimality among all real scales cannot be tested; that the scale may change its sign shows for particular topics only.", "anchors": ["sidetopics/model/lro_vb.py:train", "sidetopics/model/lro_vb.py:newModelAtRandom"]}
{"id": "C204", "title": "The offsets that latent random offsets learn are the best", "statement": "For the scale it returns, training gives each document the offset that minimises the weighted squares over its links together with the distance of the offset from the topics.", "quantifier": "all corpora, links, topics, noises", "why_tests_cant": "A test sees that training ends with offsets, not that other offsets would have fitted better.", "anchors": ["sidetopics/model/lro_vb.py:train"]}
{"id": "C205", "title": "Training latent random offsets succeeds for every corpus", "statement": "With topics that are distributions, positive noise and weights that are not negative, training returns a model; the matrices it inverts are never singular.", "quantifier": "all corpora, links, topics, numbers of iterations", "why_tests_cant": "Whether a matrix that depends on all topics and links can be singular is not for tests to say.", "anchors": ["sidetopics/model/lro_vb.py:train"]}
{"id": "C206", "title": "Offsets do not depend on the order of the documents, and a query leaves the model alone", "statement": "Training on the same documents in another order gives the same scale and the same offsets for the same documents; a query returns the model as it was and does not depend on the state it is given; topics that are trained already are kept.", "quantifier": "all corpora, links, topics, orders, plans", "why_tests_cant": "All orders of all corpora.", "anchors": ["sidetopics/model/lro_vb.py:train", "sidetopics/model/lro_vb.py:query"]}
{"id": "C207", "title": "Between weight updates regression topics are sampled from their posterior", "statement": "With fixed weights, training a Dirichlet-multinomial regression topic model moves the topics of all words by a process that leaves their posterior given words and features as it is, approaches it from every start, and whose running averages converge to posterior means; the prior of a topic in a document is the exponential of the document's features times the topic's weights.", "quantifier": "all corpora, features, weights, priors, starting topics, visiting orders, functions of the topics", "why_tests_cant": "A statement about the probability law of arbitrarily long runs.", "anchors": ["sidetopics/model/dmr.py:train", "sidetopics/model/dmr_fast.pyx:sample"]}
{"id": "C208", "title": "Queries of a regression topic model sample topics from their posterior", "statement": "A query samples the topics of new documents from their law given their words, their features and the word distributions of the model, whatever the starting topics.", "quantifier": "all queries, models, weights, features, starting topics", "why_tests_cant": "A statement about the probability law of arbitrarily long runs; deviations of one part in a million are invisible to tests.", "anchors": ["sidetopics/model/dmr.py:query", "sidetopics/model/dmr_fast.pyx:sample"]}
{"id": "C209", "title": "Updating the regression weights raises their posterior probability", "statement": "After an update the weights of all topics are at least as probable, given the sampled topics and features, as before it, if the optimiser does its work.", "quantifier": "all corpora, features, samples, weights, optimisers", "why_tests_cant": "Whether separate optimal steps make a good joint step is a question about all weights; on most data they do.", "anchors": ["sidetopics/model/dmr.py:updateWeights", "sidetopics/model/dmr.py:objective"]}
{"id": "C210", "title": "Command-line options configure what they are described to configure", "statement": "For every model, the numbers of topics and latent features, variances, the prior over words, iterations, logging and debugging options given on the command line become the parameters of that name of the model and of its training and query plans.", "quantifier": "all options and values", "why_tests_cant": "Each combination of model and option is its own call; tests exercise the modules directly, not through the option parser.", "anchors": ["sidetopics/run/__main__.py:run"]}
{"id": "C211", "title": "The models that the command line documents are the ones it offers", "statement": "Every documented model can be configured with any options, every other name is rejected, and choosing stochastic training chooses stochastic training.", "quantifier": "all model names and options", "why_tests_cant": "All names that are not documented; the absence of an effect of an option.", "anchors": ["sidetopics/run/__main__.py:run", "sidetopics/run/__main__.py:model_supports_sgd"]}
{"id": "C212", "title": "Every evaluation can be run with every model it makes sense for", "statement": "The functions that an evaluation calls exist in the module of the chosen model and accept the arguments of the call, for all documented models.", "quantifier": "all options, models and evaluations", "why_tests_cant": "Calls are checked only when they are made, after training; twenty models times seven evaluations are not tried in tests.", "anchors": ["sidetopics/run/__main__.py:cross_val_and_eval_perplexity", "sidetopics/run/__main__.py:link_split_map", "sidetopics/run/__main__.py:insample_lro_style_prec_rec"]}
{"id": "C213", "title": "Every entry of a file of results is read with its own figures", "statement": "From a file with any number of entries - blank lines and comments, a line naming the algorithm, and the output of its run - every entry is read, in order, with the name, the number of topics, the description and the perplexity, tables and means printed under that name.", "quantifier": "all files of entries", "why_tests_cant": "Unbounded numbers of entries with arbitrary text between the figures.", "anchors": ["sidetopics/run/reshape_results.py:read_all_results", "sidetopics/run/reshape_results.py:read_next_result_batch", "sidetopics/run/reshape_results.py:skip_to_non_empty_line", "sidetopics/run/reshape_results.py:from_file_entry"]}
{"id": "C214", "title": "The results read from the output of an evaluation are its final results", "statement": "From the output of an evaluation over any number of folds, the figures read are those printed under the final results.", "quantifier": "all numbers of folds, all figures, all other output", "why_tests_cant": "Any number of folds and lines between them.", "anchors": ["sidetopics/run/reshape_results.py:read_next_result_batch", "sidetopics/run/__main__.py:insample_lro_style_prec_rec"]}
{"id": "C215", "title": "The comma-separated file has a line of eleven cells for every algorithm, group and m", "statement": "Read by the usual rules, line 1 + 70 k + 10 g + i of the file has the names and the figures of the k-th algorithm, the g-th group and the i-th number of recommendations; a figure that is missing is left empty.", "quantifier": "all results", "why_tests_cant": "All names and numbers of algorithms.", "anchors": ["sidetopics/run/reshape_results.py:write_all_results", "sidetopics/run/reshape_results.py:to_delim_str"]}
{"id": "C216", "title": "The record of an arXiv abstract is what its fields say", "statement": "The title, the authors and the first word of the journal reference are read from the fields of those names, whatever their order, the lines that continue them, and the other fields, blank lines and rules between; an abstract without title or authors is refused; and from a directory exactly the records of the abstracts that can be read are written.", "quantifier": "all abstracts and directories", "why_tests_cant": "Unbounded numbers of fields, lines and files.", "anchors": ["sidetopics/run/arxiv_to_aan.py:read_paper_metadata", "sidetopics/run/arxiv_to_aan.py:read_next_key_value", "sidetopics/run/arxiv_to_aan.py:run_on_dirs"]}
{"id": "C217", "title": "Authors separated by commas or by the word and are read one by one", "statement": "From names separated by commas or by the word and, with any blanks around, exactly those names are read, in order.", "quantifier": "all lists of names", "why_tests_cant": "Any number of names and of blanks; names that contain the letters and.", "anchors": ["sidetopics/run/arxiv_to_aan.py:read_paper_metadata"]}
{"id": "C218", "title": "Rewriting an author's name keeps its letters and puts the surname first", "statement": "A name in the style of the ACL has the letters of the name it was made from; the surname, with its particle or its suffix, goes first and the given names keep their order; initials run together are taken apart.", "quantifier": "all names", "why_tests_cant": "All numbers of given names.", "anchors": ["sidetopics/run/arxiv_to_aan.py:bibtex_to_acl_author"]}
{"id": "C219", "title": "Every author of the converted papers has one number", "statement": "From the records written by the conversion, exactly their authors are listed, each once, numbered 1, 2, ... in the order of the names.", "quantifier": "all lists of papers", "why_tests_cant": "Unbounded numbers of papers and authors; names of any length.", "anchors": ["sidetopics/run/arxiv_author_ids.py:run", "sidetopics/run/arxiv_to_aan.py:write_paper_metadata"]}
{"id": "C220", "title": "The copy of a model equals it and does not share what training changes", "statement": "newModelFromExisting gives a model equal to the one given, field by field, and leaves that one as it was, also after anything is written to the arrays of the copy other than the parameters it shares.", "quantifier": "every module and model", "why_tests_cant": "All contents of all arrays, and everything that may be written later.", "anchors": ["sidetopics/model/ctm.py:newModelFromExisting", "sidetopics/model/dmr.py:newModelFromExisting", "sidetopics/model/lda_cvb.py:newModelFromExisting", "sidetopics/model/lda_gibbs.py:newModelFromExisting", "sidetopics/model/lda_vb.py:newModelFromExisting", "sidetopics/model/rtm.py:newModelFromExisting"]}
{"id": "C221", "title": "All folds of an evaluation start from the same model", "statement": "When an evaluation copies one model for each fold and trains the copy, with training that does not write to the shared parameters, all the copies are equal before they are trained.", "quantifier": "every module, model, number of folds and training", "why_tests_cant": "Any number of folds, and any training.", "anchors": ["sidetopics/run/__main__.py:cross_val_and_eval_perplexity", "sidetopics/run/__main__.py:link_split_map", "sidetopics/model/lda_gibbs.py:newModelFromExisting"]}
{"id": "C222", "title": "The topics of documents are distributions", "statement": "For the D documents of a query topicDists gives D rows of K numbers that are not negative and add up to one.", "quantifier": "every module and state of a query", "why_tests_cant": "All numbers of documents and topics, and all counts.", "anchors": ["sidetopics/model/lda_vb.py:topicDists", "sidetopics/model/lda_gibbs.py:topicDists", "sidetopics/model/lda_cvb0.py:topicDists", "sidetopics/model/dmr.py:topicDists", "sidetopics/model/mom_em.py:topicDists"]}
{"id": "C223", "title": "A table of numbers in a text file is saved as the matrix of its numbers", "statement": "For a file with as many numbers on every line as on the first, and the number of its lines, the matrix saved has a row for each line, with its numbers in order; those that the type of the matrix can hold are unchanged; and no file is saved of which not every line was read.", "quantifier": "all files and line counts", "why_tests_cant": "Any number of lines and columns; the type depends on the first line only.", "anchors": ["sidetopics/run/text_to_numpy.py:save_as_numpy", "sidetopics/run/text_to_numpy.py:read_wc_l_output"]}
{"id": "C224", "title": "The sparse and the dense conversion of a text file agree", "statement": "For a table without negative numbers both conversions give the same matrix.", "quantifier": "all tables", "why_tests_cant": "Any number of lines and columns.", "anchors": ["sidetopics/run/text_to_numpy.py:save_as_numpy_sparse", "sidetopics/run/text_to_numpy.py:save_as_numpy"]}
{"id": "C225", "title": "The bound reported by the models with B\u00f6hning's bound is a lower bound of the log probability of the words", "statement": "For every corpus and state the value of var_bound is at most the logarithm of the probability of the words under the topics.", "quantifier": "all corpora, topics, laws of the topics of documents, and states", "why_tests_cant": "A statement over all states of the model and all laws of the topics; a test sees the value for a few states and has nothing to compare it with.", "anchors": ["sidetopics/model/ctm_bohning.py:var_bound", "sidetopics/model/stm_yv_bohning.py:var_bound", "sidetopics/model/mtm2.py:var_bound"]}
{"id": "C226", "title": "The bound reported by mtm3 is determined by the topics and is a lower bound of the log probability", "statement": "States with the same topics of documents, the same distances between their means and the same variances have the same value of var_bound, and it is at most the logarithm of the probability of the words.", "quantifier": "all corpora, models and states", "why_tests_cant": "A statement over all states and all laws of topics.", "anchors": ["sidetopics/model/mtm3.py:var_bound"]}
{"id": "C227", "title": "New correlated and matrix-variate models have a full distribution over words in every topic", "statement": "Creating a model ends for every corpus and gives as many topics as asked for, each of which gives every word a positive probability and sums to one; fewer than two topics are an error.", "quantifier": "all corpora and random draws", "why_tests_cant": "Random; termination cannot be tested.", "anchors": ["sidetopics/model/ctm_bohning.py:newModelAtRandom", "sidetopics/model/ctm.py:newModelAtRandom", "sidetopics/model/mtm2.py:newModelAtRandom", "sidetopics/model/mtm3.py:newModelAtRandom"]}
{"id": "C228", "title": "A state made from the topics of an LDA model has those topics", "statement": "The topics of documents in a state of mtm3 made from topics are these topics; variances are positive, and the means that attract links are close to those that emit them.", "quantifier": "all topics and random draws", "why_tests_cant": "All numbers of documents and topics; random.", "anchors": ["sidetopics/model/mtm3.py:newQueryState", "sidetopics/model/mtm3.py:_newQueryStateFromLda"]}
{"id": "C229", "title": "Evaluating mtm3 with a saved LDA model leaves that model alone", "statement": "In every fold training starts from the word distributions of the saved model, which are the same after the evaluation as before.", "quantifier": "all saved models, numbers of folds and results of training", "why_tests_cant": "The second fold has to be compared with a run of its own.", "anchors": ["sidetopics/model/mtm3.py:newModelFromExisting", "sidetopics/model/mtm3.py:lda_vocab", "sidetopics/model/lda_vb.py:wordDists", "sidetopics/model/lda_gibbs.py:wordDists"]}
{"id": "C230", "title": "An estimator can be cloned and copied, and settings can be searched", "statement": "clone() of an estimator gives one with its settings; copy() gives a copy; setting a parameter gives what constructing with it would have given.", "quantifier": "all settings and sequences of assignments", "why_tests_cant": "Every combination of settings matters, those after assignments included.", "anchors": ["sidetopics/model/sklearn/lda_cvb.py:TopicModel", "sidetopics/model/sklearn/lda_cvb.py:TopicModel.copy"]}
{"id": "C231", "title": "The seed of an estimator determines its model", "statement": "Estimators constructed and fitted with the same seed, settings and data give the same model, whatever was done before or in between; other seeds other draws.", "quantifier": "all seeds, kinds of model and histories of a program", "why_tests_cant": "Depends on everything that ran before in the process.", "anchors": ["sidetopics/model/sklearn/lda_cvb.py:TopicModel.seed", "sidetopics/model/lda_gibbs.py:seed_rng"]}
{"id": "C232", "title": "Settings of an estimator reach the training", "statement": "Iterations, frequency of logging, tolerance, batches, burn-in and thinning given to the constructor, or to a call of fit or transform, are those of the training plan.", "quantifier": "all settings and kinds of model", "why_tests_cant": "Every pair of a setting and a kind of model.", "anchors": ["sidetopics/model/sklearn/lda_cvb.py:TopicModel._new_train_plan", "sidetopics/model/lda_gibbs.py:newTrainPlan"]}
{"id": "C233", "title": "A prior over topics is a number or a vector and is used as given", "statement": "Every kind of model accepts None, a number or a vector with an entry for each topic as doc_topic_prior, and trains with it.", "quantifier": "all priors, numbers of topics and kinds of model", "why_tests_cant": "All forms of all priors for all kinds.", "anchors": ["sidetopics/model/sklearn/lda_cvb.py:TopicModel", "sidetopics/model/lda_cvb0.py:newModelAtRandom", "sidetopics/model/lda_svb.py:newModelAtRandom", "sidetopics/model/mom_em.py:newModelAtRandom"]}
{"id": "C234", "title": "A prior over words is a number or a vector and is used as given", "statement": "Every kind of model accepts None, a number or a vector with an entry for each word as topic_word_prior, and trains with it.", "quantifier": "all priors, vocabularies and kinds of model", "why_tests_cant": "All forms of all priors for all kinds.", "anchors": ["sidetopics/model/sklearn/lda_cvb.py:TopicModel", "sidetopics/model/lda_gibbs.py:newModelAtRandom", "sidetopics/model/lda_vb_python.py:newModelAtRandom"]}
{"id": "C235", "title": "Every kind of model has every score", "statement": "score() returns likelihoods and perplexities, at a point and expected, with topics given or not, for every kind of model.", "quantifier": "all kinds of model, scores, corpora and states", "why_tests_cant": "All combinations of kinds, scores and arguments.", "anchors": ["sidetopics/model/sklearn/lda_cvb.py:TopicModel.score", "sidetopics/model/lda_gibbs.py:log_likelihood_point"]}
{"id": "C236", "title": "Every kind of model takes every corpus", "statement": "fit() accepts corpora of any number of documents and any type of counts.", "quantifier": "all kinds of model, types of counts and numbers of documents", "why_tests_cant": "Number types fail only in combination with compiled code.", "anchors": ["sidetopics/model/lda_cvb0.py:toWordList", "sidetopics/model/lda_gibbs.py:train", "sidetopics/model/mom_em.py:train"]}
{"id": "C237", "title": "Topics that transform returns depend on the words", "statement": "transform() with the default number of iterations infers topics from the words of the documents, however many iterations the model was trained for.", "quantifier": "all kinds of model, numbers of iterations and corpora", "why_tests_cant": "Returns topics of the right shape in any case; they are random.", "anchors": ["sidetopics/model/sklearn/lda_cvb.py:TopicModel.transform", "sidetopics/model/lda_gibbs.py:query", "sidetopics/model/mom_gibbs.py:query", "sidetopics/model/mom_em.py:query"]}
{"id": "C238", "title": "Scores of the wrapped models of scikit-learn and gensim are likelihoods and perplexities", "statement": "score() is the logarithm of the probability of the documents given their topics, never positive; perplexity is at least one, and the size of the vocabulary for a model whose topics are uniform; document completion infers topics from one half and scores the other.", "quantifier": "all corpora, topics and models", "why_tests_cant": "Any number could be the likelihood of a random model.", "anchors": ["sidetopics/model/sklearn/lda_cvb.py:WrappedSckitLda.score", "sidetopics/model/sklearn/lda_cvb.py:WrappedScikitHdp.score", "sidetopics/model/evals.py:perplexity_from_like"]}
{"id": "C239", "title": "The wrapped models score corpora of any type of count", "statement": "score() works for single and double precision and for whole numbers.", "quantifier": "all corpora, topics and models", "why_tests_cant": "Types fail in compiled code.", "anchors": ["sidetopics/model/sklearn/lda_cvb.py:WrappedSckitLda.score", "sidetopics/model/sklearn/lda_cvb.py:WrappedScikitHdp.score", "sidetopics/util/sparse_elementwise.py:sparseScalarProductOfSafeLnDot"]}
{"id": "C240", "title": "The wrapped models have the documented options", "statement": "A batch size can be given to the constructor; score() takes a query state or a method of expected likelihood.", "quantifier": "all batch sizes, states and methods", "why_tests_cant": "Every batch size, every state.", "anchors": ["sidetopics/model/sklearn/lda_cvb.py:WrappedSckitLda.__init__", "sidetopics/model/sklearn/lda_cvb.py:WrappedScikitHdp.__init__"]}
{"id": "C241", "title": "Training of the wrapped LDA model can be resumed and repeated", "statement": "Fitting and resuming is the same as fitting with the sum of the iterations; a fit from the start does not depend on models before; iterations passed to fit are those made.", "quantifier": "all numbers of iterations, data and histories", "why_tests_cant": "Equality with an uninterrupted run, for all numbers of iterations.", "anchors": ["sidetopics/model/sklearn/lda_cvb.py:WrappedSckitLda.fit", "sidetopics/model/sklearn/lda_cvb.py:WrappedSckitLda._init_latent_vars"]}
{"id": "C242", "title": "Debugging does not change what is learnt", "statement": "Training and queries of the correlated, side-topic and matrix-variate models with debugging on return the state that they return with debugging off.", "quantifier": "all models, states, sequences of updates and values of the bound", "why_tests_cant": "Debugging is off in tests; compares whole runs.", "anchors": ["sidetopics/model/ctm_bohning.py:_debug_with_bound", "sidetopics/model/stm_yv_bohning.py:_debug_with_bound", "sidetopics/model/mtm2.py:query", "sidetopics/model/mtm3.py:_debug_with_bound"]}
{"id": "C243", "title": "Computing the bound leaves the state alone", "statement": "var_bound resets the values that it changes, so that it can be called any number of times: the arrays of the query state are as before, and a second call returns the same.", "quantifier": "all query states, at any addresses", "why_tests_cant": "Underflow needs particular means; sharing of arrays is invisible to a single call.", "anchors": ["sidetopics/model/ctm.py:var_bound", "sidetopics/model/ctm_bohning.py:var_bound", "sidetopics/model/stm_yv.py:var_bound", "sidetopics/model/stm_yv_bohning.py:var_bound"]}
{"id": "C244", "title": "Debugging output compares the bounds of one run", "statement": "A run prints one line per update, with the difference to the bound before it, and does not depend on what was trained before.", "quantifier": "all histories, updates and bounds", "why_tests_cant": "Needs several trainings in one process.", "anchors": ["sidetopics/model/ctm_bohning.py:_debug_with_bound", "sidetopics/model/stm_yv_bohning.py:train"]}
{"id": "C245", "title": "The dictionary made for gensim describes the corpus", "statement": "gensim_dictionary gives a token to every column of the word counts and counts documents, non-zero entries, occurrences and the documents of each word; topics learned with it can score any document of the same vocabulary.", "quantifier": "all sparse corpora", "why_tests_cant": "Needs corpora that do not use the end of their vocabulary; counts over whole matrices.", "anchors": ["sidetopics/model/common.py:gensim_dictionary"]}
{"id": "C246", "title": "Sparse element-wise operations compute with the product of the dense matrices", "statement": "The product, the quotient and the product with the logarithm return for each stored entry the operation on it and on the entry of the matrix product, and reject shapes that do not agree.", "quantifier": "all sparse and dense matrices of agreeing shapes; all shapes for what is read", "why_tests_cant": "Reads outside arrays are not detected by the compiled code; over all shapes.", "anchors": ["sidetopics/util/sparse_elementwise.py:sparseScalarProductOfDot", "sidetopics/util/sparse_elementwise.py:sparseScalarQuotientOfDot", "sidetopics/util/sparse_elementwise.py:sparseScalarProductOfSafeLnDot"]}
{"id": "C247", "title": "Sparse element-wise operations accept the number types of counts and of models", "statement": "The operations work for counts of whole numbers and parameters in floating point, or for the same type everywhere.", "quantifier": "all combinations of number types and shapes", "why_tests_cant": "All combinations of types and operations.", "anchors": ["sidetopics/util/sparse_elementwise.py:sparseScalarProductOfDot", "sidetopics/util/sparse_elementwise.py:_sparseScalarProductOfDot_py", "sidetopics/util/sparse_elementwise.py:sparseScalarQuotientOfDot", "sidetopics/util/sparse_elementwise.py:sparseScalarProductOfSafeLnDot"]}
{"id": "C248", "title": "The hashtags evaluated are the most frequent ones", "statement": "popular_hashtag_indices returns the columns of the most frequent hashtags of the dictionary, most frequent first, and all of them if there are fewer than asked for.", "quantifier": "all corpora, dictionaries and counts, every correct sort", "why_tests_cant": "Over all corpora, dictionaries and orders of ties.", "anchors": ["sidetopics/run/__main__.py:popular_hashtag_indices"]}
{"id": "C249", "title": "Report templates are filled as written", "statement": "A template is filled by putting each value in the place of its name, as it is, and one dollar for two; texts with other uses of dollars, or with unknown names, are refused.", "quantifier": "all templates, names and values", "why_tests_cant": "Over all texts.", "anchors": ["sidetopics/run/report_generator.py:_generate_report"]}
{"id": "C250", "title": "Every configuration with outputs gets its report", "statement": "generate_reports_ctm and generate_reports_stm_yv return the number of folds of every configuration asked for, zero if there was an error, write a report that lists exactly the outputs of that configuration if there are any, and change no other file.", "quantifier": "all directories of saved outputs, configurations, templates and files on disk", "why_tests_cant": "Over all sets of saved outputs and configurations; depends on names given by another script.", "anchors": ["sidetopics/run/report_generator.py:generate_reports_ctm", "sidetopics/run/report_generator.py:generate_reports_stm_yv", "sidetopics/run/report_generator.py:_generate_report", "sidetopics/run/report_generator.py:_copyPdfConversionFiles"]}
{"id": "C251", "title": "Reports lead to their outputs", "statement": "The list of files in a report, read as Python, is that of the outputs it was made for, and the prefix that of their directory; the command makes the reports of all sizes given to it.", "quantifier": "all outputs and directories", "why_tests_cant": "Over all names; notebooks are not run by tests.", "anchors": ["sidetopics/run/report_generator.py:_generate_report", "sidetopics/run/report_generator.py:run"]}
{"id": "C252", "title": "Numbering does not matter to LDA", "statement": "Training LDA (lda_vb_python) on the same documents in another order, with words and topics numbered differently, gives the same parameters, numbered accordingly.", "quantifier": "all corpora, starting points, priors, numbers of iterations and permutations of documents, words and topics", "why_tests_cant": "Over all permutations and corpora; equality of results of whole training runs, not of outputs to constants.", "anchors": ["sidetopics/model/lda_vb_python.py:train"]}
{"id": "C253", "title": "Numbering does not matter to correlated topic models", "statement": "Training and querying ctm_bohning, and querying stm_yv_bohning, on the same documents in another order, with words, topics and features numbered differently, gives the same means, variances and vocabulary, numbered accordingly, or raises the same exception.", "quantifier": "all corpora, starting points, covariances, numbers of iterations and permutations", "why_tests_cant": "Over all permutations and corpora; goes through matrix inverses.", "anchors": ["sidetopics/model/ctm_bohning.py:train", "sidetopics/model/ctm_bohning.py:query", "sidetopics/model/stm_yv_bohning.py:query"]}
{"id": "C254", "title": "Numbering does not matter to mixtures of multinomials", "statement": "Training and querying mom_em on the same documents in another order, with words and topics numbered differently, stops after the same number of steps and gives the same parameters, numbered accordingly, or raises the same exception.", "quantifier": "all corpora, starting points, priors, plans and permutations", "why_tests_cant": "Over all permutations and corpora; the decision to stop is part of it.", "anchors": ["sidetopics/model/mom_em.py:train", "sidetopics/model/mom_em.py:query"]}
{"id": "C255", "title": "ctm_bohning_fast trains like ctm_bohning", "statement": "Training with ctm_bohning_fast gives the same model and query state as training with ctm_bohning, or the same exception.", "quantifier": "all corpora, starting points, plans and inverses", "why_tests_cant": "Over all corpora and runs; a relation of two programs.", "anchors": ["sidetopics/model/ctm_bohning_fast.py:train"]}
{"id": "C256", "title": "mtm accounts for every word and every link", "statement": "After training mtm, the weights of each word over the topics sum to its number of occurrences and the priors, the topics' distributions over words are distributions, and the links counted for the topics sum to the number of links.", "quantifier": "all corpora, starting points, plans, digamma functions and inverses", "why_tests_cant": "An invariant over all corpora and numbers of iterations.", "anchors": ["sidetopics/model/mtm.py:train"]}
{"id": "C257", "title": "The sums in a query state of mtm are those of its topics", "statement": "Whatever training was done, the sums that the query state keeps beside the topics (by document and by topic, of the scores and of their exponentials) are the sums of its topics.", "quantifier": "all corpora, starting points and plans", "why_tests_cant": "An invariant over all runs.", "anchors": ["sidetopics/model/mtm.py:train", "sidetopics/model/mtm.py:newQueryState"]}
{"id": "C258", "title": "The covariance that mtm estimates is symmetric", "statement": "Training mtm from a symmetric covariance gives a symmetric covariance.", "quantifier": "all corpora, starting points and plans", "why_tests_cant": "A relation between all entries of a matrix for all runs.", "anchors": ["sidetopics/model/mtm.py:train"]}
{"id": "C259", "title": "Queries and copies of mtm leave the model alone", "statement": "query of mtm leaves the model as it was; newModelFromExisting gives an equal model, and training the copy does not change the original.", "quantifier": "all corpora, models and plans", "why_tests_cant": "Over all models; about what is not changed.", "anchors": ["sidetopics/model/mtm.py:query", "sidetopics/model/mtm.py:newModelFromExisting"]}
{"id": "C260", "title": "mtm can be trained on any corpus without empty documents", "statement": "Training mtm with any number of topics gets to its end on any corpus of two or more documents that are not empty.", "quantifier": "all corpora, numbers of topics, starting points and plans", "why_tests_cant": "Over all sizes; depends on the rank of an estimated matrix.", "anchors": ["sidetopics/model/mtm.py:train"]}
{"id": "C261", "title": "mtm predicts links", "statement": "min_link_probs and link_probs give link probabilities for a model of mtm.", "quantifier": "all models", "why_tests_cant": "Over all models.", "anchors": ["sidetopics/model/mtm.py:min_link_probs", "sidetopics/model/mtm.py:link_probs"]}
{"id": "C262", "title": "self_lda_vb_python trains and queries", "statement": "Training and querying self_lda_vb_python get to their end, and zero iterations leave everything as it was.", "quantifier": "all corpora, models and plans", "why_tests_cant": "Over all corpora and plans.", "anchors": ["sidetopics/model/self_lda_vb_python.py:train", "sidetopics/model/self_lda_vb_python.py:query"]}
{"id": "C263", "title": "Training stm_uv_vecy_bohning reports its measurements", "statement": "Training for any positive number of iterations and log frequency returns the iterations at which it measured, with the bound and the likelihood of each.", "quantifier": "all numbers of iterations, log frequencies and measurements", "why_tests_cant": "Over all numbers of iterations and frequencies.", "anchors": ["sidetopics/model/stm_uv_vecy_bohning.py:train"]}
{"id": "C264", "title": "Training stm_uv_vecy_bohning keeps the words of topics distributions", "statement": "In each iteration the occurrences of each word are shared out among the topics, and the words of a topic get probabilities in proportion to its share and the prior; after any number of iterations each topic's words have positive probabilities with sum one.", "quantifier": "all corpora, features, starting points, numbers of iterations, sort orders and inverses", "why_tests_cant": "Over all corpora and runs.", "anchors": ["sidetopics/model/stm_uv_vecy_bohning.py:train"]}
{"id": "C265", "title": "Each step of stm_uv_vecy_bohning solves its least-squares problem", "statement": "In each iteration the map from features to topics minimises the squared error to the topics of the documents, with a penalty for leaving the latent space; the places of the topics in it minimise the error to the map, with a penalty for their size; and its directions minimise the error to the map with the uncertainty of the places.", "quantifier": "all corpora, features, states, variances and inverses", "why_tests_cant": "A minimum over all real matrices.", "anchors": ["sidetopics/model/stm_uv_vecy_bohning.py:train"]}
{"id": "C266", "title": "stm_uv_vecy_bohning does not depend on the order of documents", "statement": "Training, which sorts the documents by length, gives what training in the caller's order gives; documents in another order give the same model, and the same means and variances for each document.", "quantifier": "all corpora, orders, sort orders, states and numbers of iterations", "why_tests_cant": "A relation of two runs, over all permutations.", "anchors": ["sidetopics/model/stm_uv_vecy_bohning.py:train"]}
{"id": "C267", "title": "The weights that stm_uv_vecy_bohning returns belong to the means", "statement": "After training, expMeans are the exponentials of the means that are returned with them, document by document.", "quantifier": "all corpora, numbers of iterations and log frequencies", "why_tests_cant": "Over all runs, and about the order of rows.", "anchors": ["sidetopics/model/stm_uv_vecy_bohning.py:train"]}
{"id": "C268", "title": "Each iteration of stm_uv_vecy_bohning improves the topics of each document", "statement": "In each iteration the new means of every document have at least the posterior probability of the old ones, under the words, the map and the covariance of this iteration.", "quantifier": "all corpora, features, states and inverses", "why_tests_cant": "An inequality over all real states, by a quadratic bound.", "anchors": ["sidetopics/model/stm_uv_vecy_bohning.py:train"]}
{"id": "C269", "title": "Queries of stm_uv_vecy_bohning", "statement": "A query leaves no document with a lower posterior probability, whatever the number of iterations; from a hundred iterations on it is a query of stm_yv_bohning; without iterations it changes nothing.", "quantifier": "all corpora, models, states, numbers of iterations and inverses", "why_tests_cant": "An inequality over all states and runs; a relation of two programs.", "anchors": ["sidetopics/model/stm_uv_vecy_bohning.py:query"]}
{"id": "C270", "title": "What stm_uv_vecy_bohning can be trained on", "statement": "Training gets to its end for sparse and dense features, and any number of iterations.", "quantifier": "all corpora, features, states and numbers of iterations", "why_tests_cant": "Over all corpora and runs.", "anchors": ["sidetopics/model/stm_uv_vecy_bohning.py:train"]}
{"id": "C271", "title": "Training sidetopic_uyv fits the topics of the documents", "statement": "After training, the topics of each document reflect its words: the state of the documents that training returns depends on the corpus.", "quantifier": "all corpora, features, models, plans and inverses", "why_tests_cant": "About what never happens, over all corpora and runs.", "anchors": ["sidetopics/model/old/sidetopic_uyv.py:train"]}
{"id": "C272", "title": "Each step of sidetopic_uyv solves its least-squares problem", "statement": "In each iteration the latent map, the map from features to topics, and each row of the two bases minimise their penalised squared error, given the others.", "quantifier": "all features, states, variances and inverses", "why_tests_cant": "A minimum over all real matrices.", "anchors": ["sidetopics/model/old/sidetopic_uyv.py:train"]}
{"id": "C273", "title": "Training sidetopic_uyv never lowers the likelihood of the corpus", "statement": "Each update of the words of topics gives distributions over the words, in which every word that occurs keeps a positive probability, and under which the corpus is at least as likely as before; a new model starts from distributions.", "quantifier": "all corpora, topics and numbers of iterations", "why_tests_cant": "An inequality over all real states.", "anchors": ["sidetopics/model/old/sidetopic_uyv.py:train", "sidetopics/model/old/sidetopic_uyv.py:newVbModelState"]}
{"id": "C274", "title": "A query of sidetopic_uyv never makes a document worse", "statement": "Whatever the number of iterations, a query leaves every document with at least the variational bound that it started with.", "quantifier": "all corpora, models, states and numbers of iterations", "why_tests_cant": "An inequality over all states and runs.", "anchors": ["sidetopics/model/old/sidetopic_uyv.py:query"]}
{"id": "C275", "title": "Each update in a query of sidetopic_uyv is the best one", "statement": "In each iteration of a query the means, the variances and the tangents of the bound are each the best for the others, and a query that changes nothing has found the best means and variances.", "quantifier": "all corpora, models and states", "why_tests_cant": "Optima over all real vectors.", "anchors": ["sidetopics/model/old/sidetopic_uyv.py:query"]}
{"id": "C276", "title": "What sidetopic_uyv can be trained on", "statement": "Training gets to its end for sparse features and any number of documents, with the plan that the module makes by default.", "quantifier": "all corpora, features, models and plans", "why_tests_cant": "Over all corpora and runs.", "anchors": ["sidetopics/model/old/sidetopic_uyv.py:train", "sidetopics/model/old/sidetopic_uyv.py:newTrainPlan"]}
{"id": "C277", "title": "The measurements that sidetopic_uyv takes", "statement": "Training measures the likelihood as often as the plan says, at iterations that are ever further apart, and at the last one.", "quantifier": "all numbers of iterations and of measurements", "why_tests_cant": "Over all plans, with rounding up of real powers.", "anchors": ["sidetopics/model/old/sidetopic_uyv.py:train"]}
{"id": "C278", "title": "Each step of sidetopic solves its least-squares problem", "statement": "In each iteration of training the latent map, the map from features to topics and the projection each minimise their penalised squared error, given the others.", "quantifier": "all features, models, variances and states", "why_tests_cant": "A minimum over all real matrices.", "anchors": ["sidetopics/model/old/sidetopic.py:train"]}
{"id": "C279", "title": "Training sidetopic never lowers the variational bound", "statement": "Whatever the number of iterations, training leaves at least the variational bound that it started with, over the topics of the documents, the words of topics, the maps, the projection and the covariances; a new model is a model to start with.", "quantifier": "all corpora, features, draws and numbers of iterations", "why_tests_cant": "An inequality over all real states and runs.", "anchors": ["sidetopics/model/old/sidetopic.py:train", "sidetopics/model/old/sidetopic.py:newVbModelState"]}
{"id": "C280", "title": "What sidetopic can be trained on", "statement": "Training gets to its end, whatever the features and the corpus and whether or not it logs, with distributions over the words for topics.", "quantifier": "all corpora, features, models, numbers of iterations and intervals for the log", "why_tests_cant": "Over all corpora and runs.", "anchors": ["sidetopics/model/old/sidetopic.py:train"]}
{"id": "C281", "title": "Training sidetopic finds the best offsets of the documents", "statement": "After training, no other offset in the bound on the sum of exponentials gives a document a better bound.", "quantifier": "all corpora, models and runs", "why_tests_cant": "An optimum over the reals, over all runs.", "anchors": ["sidetopics/model/old/sidetopic.py:train"]}
{"id": "C282", "title": "Each update of a document in the training of sidetopic is the best one", "statement": "In each iteration the variances and the tangents of the bound of each document are the best for the rest, and the means solve their equations and never lower the bound.", "quantifier": "all corpora, models and states", "why_tests_cant": "Optima over all real vectors.", "anchors": ["sidetopics/model/old/sidetopic.py:train"]}
{"id": "C283", "title": "The bound that sidetopic prints ranks models as the variational bound does", "statement": "What training prints after each step is the variational bound up to a constant, so that the larger of two printed values belongs to the better model.", "quantifier": "all corpora, features, models and states", "why_tests_cant": "An identity and an order over all real states.", "anchors": ["sidetopics/model/old/sidetopic.py:varBound"]}
{"id": "C284", "title": "Training sidetopic_uy learns from the words", "statement": "Training adapts the words of the topics and the topics of the documents to the words of the corpus, and returns the exponentials of the means of the topics.", "quantifier": "all corpora, features, draws, logs and numbers of iterations", "why_tests_cant": "Over all corpora and runs.", "anchors": ["sidetopics/model/old/sidetopic_uy.py:train"]}
{"id": "C285", "title": "Training sidetopic_uy fits the map from features to topics", "statement": "Training gets to its end with a positive definite covariance of the topics, and in each iteration the latent map, the map from features and the projection are the best for the rest, at the variances that the model was made with.", "quantifier": "all features, draws, models and numbers of iterations", "why_tests_cant": "Minima over all real matrices, over all runs.", "anchors": ["sidetopics/model/old/sidetopic_uy.py:train", "sidetopics/model/old/sidetopic_uy.py:newVbModelState"]}
{"id": "C286", "title": "A model of sidetopic_uv_vecy can be made, trained and measured", "statement": "A model can be made for any sizes, and training and the bound return a result for it.", "quantifier": "all sizes, corpora, plans and outcomes of the parts that are computed", "why_tests_cant": "Over all inputs and everything that the numerical code may do.", "anchors": ["sidetopics/model/old/sidetopic_uv_vecy.py:newVbModelState", "sidetopics/model/old/sidetopic_uv_vecy.py:train", "sidetopics/model/old/sidetopic_uv_vecy.py:varBound"]}
{"id": "C287", "title": "The bound that stm_yv reports ranks models as the variational bound does", "statement": "The bound of a model and its queried documents is the variational bound up to a constant: the larger of two values belongs to the better model, and it does not exceed the logarithm of the probability of the corpus.", "quantifier": "all corpora, features, models and states of queried documents", "why_tests_cant": "An identity and an order over all real states.", "anchors": ["sidetopics/model/stm_yv.py:var_bound"]}
{"id": "C288", "title": "The bound that mtm reports counts words and links once", "statement": "In the bound of mtm the words and links of each document contribute the best lower bound of the logarithms of their probabilities over the assignments to topics; scores with the same distributions have the same bound, and it is not positive when only a link is uncertain.", "quantifier": "all corpora with links, digamma functions, models and states of two or more documents", "why_tests_cant": "An identity over all real states and all assignments.", "anchors": ["sidetopics/model/mtm.py:var_bound"]}
{"id": "C289", "title": "The bound that sidetopic_uyv reports ranks vocabularies as the variational bound does", "statement": "The words contribute to the reported bound what they contribute to the variational bound, so that of two vocabularies, all else equal, the larger value belongs to the better one.", "quantifier": "all corpora, models and states of queried documents", "why_tests_cant": "An identity and an order over all real states.", "anchors": ["sidetopics/model/old/sidetopic_uyv.py:varBound"]}
{"id": "C290", "title": "The bound that sidetopic_uy reports ranks covariances as the variational bound does", "statement": "A trained model has a bound, and of two covariances of the topics, all else equal, the larger bound belongs to the one under which the latent map, the map from features and the topics of the documents are more likely.", "quantifier": "all corpora, features, models with a latent map of P by P covariance, states and covariances", "why_tests_cant": "An identity and an order over all real covariances.", "anchors": ["sidetopics/model/old/sidetopic_uy.py:varBound"]}
{"id": "C291", "title": "The likelihood of the LDA with links is that of the words and the links", "statement": "The likelihood that self_lda_vb_python reports is the log probability of the words under the documents' mixtures of topics plus that of the links, for every corpus, and can be told for corpora with any number of words.", "quantifier": "all corpora, links, weights of topics and of words", "why_tests_cant": "Identities over all real weights; corpora with more words than documents.", "anchors": ["sidetopics/model/self_lda_vb_python.py:log_likelihood", "sidetopics/model/self_lda_vb_python.py:topicDists", "sidetopics/model/self_lda_vb_python.py:wordDists"]}
{"id": "C292", "title": "The estimate of a Dirichlet's parameter takes Newton's steps up the log probability of the samples", "statement": "Each step solves Newton's equations for the log probability of the samples, and exactly the stationary parameters are left as they are.", "quantifier": "all samples, parameters and numbers of coordinates; all functions that are derivatives of each other in place of digamma and trigamma", "why_tests_cant": "Derivatives and the solution of a linear system of any size.", "anchors": ["sidetopics/model/stm_uv_vec_y_bohning.py:estimate_dirichlet_param"]}
{"id": "C293", "title": "The likelihood and the error of the old side topic model can be told of a query state", "statement": "log_likelihood gives the log probability of the words under the softmax of the documents' scores, leaves the query state as it was, and rejects matrices of other shapes; recons_error gives the error of reconstruction.", "quantifier": "all corpora, models, query states and shapes", "why_tests_cant": "Identities over all real scores; arrays changed and changed back.", "anchors": ["sidetopics/model/old/sidetopic_uyv.py:log_likelihood", "sidetopics/model/old/sidetopic_uyv.py:recons_error"]}
{"id": "C294", "title": "A model of the LDA with links has a query state", "statement": "A new model has the default prior over the topics and topics with more weight on the words of a document, and a query state can be made for it.", "quantifier": "all corpora, numbers of topics, priors and random draws", "why_tests_cant": "All random draws and priors.", "anchors": ["sidetopics/model/self_lda_vb_python.py:newModelAtRandom", "sidetopics/model/self_lda_vb_python.py:newQueryState"]}
{"id": "C295", "title": "Training in pure Python leaves distributions where the compiled function does", "statement": "After iterations of lda_vb.iterate the arrays that were passed hold a distribution over topics for each document and one over words for each topic, which do not depend on the order of the documents, and the inner iterations stop when the topics have converged.", "quantifier": "all corpora, priors, numbers of iterations and initial arrays", "why_tests_cant": "Parity of the number of iterations and all real weights.", "anchors": ["sidetopics/model/lda_vb.py:iterate"]}
