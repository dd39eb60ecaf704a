# Formal model of sidetopics: design

Source under study: `/repo` (budgefeeney/sidetopics, pinned commit), read as
text. Nothing is built or run. Prover: Coq 8.16.1. All Coq files live in
`rocq/theories`.

## 1. How the model is built

* Shallow, executable Gallina functions, one per Python/Cython function,
  mirroring the branches of the original. Each definition cites file and lines.
* A Python exception is a value: `res A := Ok a | Raise e`. A call that always
  crashes is modelled as one that returns `Raise`, so "the function works" is
  a statement that can be refuted.
* Loops over ranges are folds; `while` loops carry fuel and a separate theorem
  shows the fuel is enough (or the property is about non-termination).
* Randomness, digamma and other external calls are universally quantified
  arguments (lists of draws, function arguments). No oracle is an axiom.
* Numbers. Counts, ids and sizes are `nat`/`Z` (unbounded). Rational-valued
  metrics are `Q`. Logs and exponentials are `R`. Floating point rounding is
  NOT modelled, except in FloatModel and where a file says so.
* CSR matrices. Where the code walks `indptr/indices/data` the model walks the
  same three arrays; where the code uses scipy row operations the model uses
  the list of stored (column, value) pairs per row.
* File layout per topic `X`: `XModel.v` (code), `XSpec.v` (independent
  specification, when more than a line), `XProofs.v`, `XProps.v` (theorem
  statements, examples that meet their hypotheses, `Print Assumptions`).

## 2. Plan per property

The plan was written before the proofs, for the first properties; the table of
section 2.2 gives every property and what became of it.

### 2.1 Plan

| id | what is modelled | how it is to be proved |
|----|------------------|------------------------|
| C01-C03 | index arithmetic of `cross_valid_split_indices` over `Z` | modular arithmetic, `Permutation`; C03 refuted by a witness with characterisation |
| C04 C05 | DataSet record with rows of words/feats/links/categories; every public operation returning a DataSet | simulation: each operation is row selection by an index list; induction over operation histories |
| C06 | the two stages of `prune_and_shuffle`, the link loop with fuel | loop invariant; greatest fixed point of "has enough links inside" |
| C07 C08 | same record | witness (refuted) and the part that holds |
| C09 | the token grouping loop | induction with accumulator invariant |
| C10 C11 | link matrices as stored entries, dense view by summing | algebra on the dense view; C11 refuted by stored zero, proved when none |
| C12 | column means over `Q` | proved when features lie in [0,1]; refuted in general |
| C13 | column counts, column selection | filter lemmas |
| C14-C16 | rounding of jittered counts over `Q` with arbitrary jitter; cast; row filter | C14 algebra; C15 witness; C16 witness plus characterisation |
| C17 C18 | the array loop of `_folded_split` | per-row slice lemma; refutation for short rows and left-over links |
| C19 | `_split` including the float slice index | always raises (refuted); the intended algorithm is not code, so nothing else is claimed |
| C20 | masks over `Q` features | proved for one-feature non-negative case; refuted in general |
| C21 | both helpers on coordinate lists | equality of dense views |
| C22 | entry loop with arbitrary draws | induction over entries |
| C23-C28 | ranking lists and the metric loops, over `Q` | induction over documents, list/set cardinality |
| C29 | `combine_map` over association lists | field algebra, induction over folds |
| C30-C32 | the array loops | loop invariant relating flat position and row; involution by div/mod |
| C33 | flat-index loop of compiled kernels, arbitrary kernel function | loop invariant; refutation for start>0 |
| C34 C35 | piecewise functions over `R` | real analysis from the standard library |
| C36 | `converged` over `R` | arctan monotonicity; refutation for falling bounds |
| C37 | segment computation over `Z` | arithmetic; refuted for logFrequency > iterations |
| C38 C39 | per-token update over `Q`/`R` with abort | invariant by induction over tokens, topics, sweeps, abort points |
| C40 | token expansion and swaps | permutation, count lemmas |
| C41-C43 | sampler state machine with arbitrary draws | invariant by induction over steps |
| C44 | plan arithmetic | refuted below ten iterations, proved from ten |
| C45 C46 | wrapper as a state machine over object identities | invariant over call histories |
| C47 C48 | fold loop with arbitrary outcome per fold | loop invariant |
| C49 C50 C51 C63 | batch schedule, aliasing of the model arrays, conversions | arithmetic; witness |
| C52 C53 | prefix of sorted indices; threshold selection | counting; minimum lemma |
| C54-C60 | string and table helpers | induction on strings; witnesses |
| C61 | stable sort and its inverse on row lists | permutation inverse; refuted for `expMeans` |
| C62 | sample buffer indices | arithmetic; refuted |
| C64 | token weights, vocabulary update over `R` | sum exchange, positivity invariant |

Properties C65 and later were added as the model grew. They were found while
transcribing the code: each states what a caller relies on, and was then either
proved or refuted.

Methods for the later ones: C65-C77 as C04-C36; C78-C88 invariants of the samplers
and trainers over sweeps and draws; C89-C92, C109, C110 the wrapper over arbitrary
modules; C93-C98 algebra over `R` with an arbitrary digamma; C99-C103 the drivers
with arbitrary fold results; C104-C108, C111-C113 induction over text; C114-C119,
C124, C125 sums over `R` (mean-field updates by characterisation of the maximiser);
C120-C123 inequalities over `R`; C126-C130 sample buffers as state machines, and a
derivative over `R`; C131, C132, C136 minorisation of the log-likelihood by a
quadratic, for which the bound on log-sum-exp is proved; C133-C135, C137 witnesses.
Link evaluations: an invariant of the rounds relates the running sums to the pooled
documents (C138, C139), over the feature split of C20; C140 by cases of the saving run.
C141-C143: doubles as reals rounded by Flocq's `round`; error bounds by induction over the
sums, and the exact theorems carried over.
C144-C152: closed form of the inner loop (it is constant from the first pass), from which the
other statements follow; injectivity of sums of softmaxes for the exact condition of C144. The
hypotheses on digamma have a witness, constructed as the limit of its series (DigammaWitness).
C153-C162: a quadratic bound of log-sum-exp by I - 1/K, the touching bound of the posterior
with two priors, and invariants of the states; the queries by an invariant of their iterations.
C163-C174: the tangent bound by the sign of derivatives (mean value theorem), Bouchard's bound by the
product inequality, the updates as maximisers of the resulting quadratic; normal equations for the regression.
C175-C181: reals extended by one non-finite value, so that losing a document shows; sorting as an
argument that returns a stable order; batches by the invariant of the buffer's filled rows. C182-C184: named tuples as lists of fields.
C185-C190: monotone digamma functions, with the fuel of the loops generalised; derivatives of
compositions for the gradient; extended reals for the estimate that divides by zero.
C191-C195: the evidence as a sum over assignments, in a specification of its own (BoundSpec); Gibbs'
inequality; joint convexity of the logarithm of the beta function, from log-convexity and the
functional equation of gamma by the limit of an urn scheme (GammaProofs); existence of such a
function and its derivative by series (GammaWitness).
C196-C199: the laws of a Markov chain, in a specification of its own (StationSpec), where the
probability of a move is the length of the interval of draws that make it; detailed balance of one
visit from the chain rule of the Dirichlet-multinomial distribution; contraction of a sweep by a
common lower bound of its transition probabilities (Doeblin); variance of averages from the
correlations along the chain (StationProofs, StationGibbs).
C200: the bound of a mixture with integrated-out parameters against its evidence by Jensen's
inequality and the convexity of the logarithm of the gamma function; each half step is the
maximiser in its arguments (MixBoundProofs).
C201-C202: as C196, for documents visited in turn; the conditional of a document by the chain rule
of the Dirichlet-multinomial distribution (MomProofs, MomLaw), a query as a path of the chain (MomRuns).
C203-C206: completing the square in the scale; the inverse of a multiple of the identity plus a
product of two vectors in closed form; reindexing of sums (OffProofs, OffMore).
C207-C208: the generic chain of StationProofs with one prior per document (DmrLaw).  C209: the objective
is the posterior along one row; the witness has explicit densities whose maxima exist by continuity and
are bounded by inequalities of rational functions (DmrUpdate).
C210-C212: Python's binding of arguments as a function (checked against a declarative rule, `bind_args_value`),
signatures transcribed from the modules; case analysis on the model's name with symbolic option values (CliProps).
C213-C215: the five reading loops are one scan, shown to skip lines that are neither a hit nor a stop;
what skip_to_non_empty_line drops the scan drops too; induction on the entries, using C113 for the tables (ReshapeProofs, ReshapeProps).
C216: one field is read exactly from any gap and continuation; induction on the fields, with the
invariant that what is still to come is unset; C217: no delimiter can begin inside a name; C218: permutation
of letters through splitting and joining; C219: splitting undoes joining up to blanks, and insertion keeps the order
(ArxivProofs, ArxivProps).
C220: arrays are addresses of a heap that a copy only makes longer, so that what is not kept is new; C221: induction
on the folds, with the invariant that the addresses of the first model keep what they hold; C222: a row over its
sum (CopyProps).
C223, C224: induction on the lines, with the rows already written in front of those still empty (NumtextProps).
C225: the value along means of which one topic grows is a quadratic polynomial with a positive leading coefficient, up to terms that are bounded; probabilities of words are at most one (BohBoundProps).
C226: the exponentials do not change when all means are shifted, and the weights of the topics of a document add up to its length (LinkBoundProps).
C227: as C118; C228: exponentials of logarithms cancel; C229: induction on the folds (StartProps).
C230-C237: case analysis over settings, kinds and forms of arguments; C231: symbolic runs of histories; C237: which sweeps are sampled (EstProps).
C238: logarithms of products; C239, C240: case analysis; C241: induction on passes (WrapProps).
C242-C244: a heap of arrays with the debugging calls' copies at its end; induction on the updates; exp followed by ln (DebugProps).
C245: induction on stored entries; C246, C247: reads and their addresses, case analysis of types (OpsProps). C248: filtering and sorting (TagProps).
C249: induction on templates; C250: induction on configurations with unique report names; C251: unique reading of quoted lists (ReportProps).
C252: sums do not depend on the order, for the mean-field iteration of C125; C253: simulation, with uniqueness of inverses of symmetric matrices and a closed form of those of training; C254: simulation of tables by functions (SymProps).
C255-C263 (EarlyProps): induction on iterations and documents; C260: a homogeneous system with fewer equations than unknowns has a solution, by elimination.
C264-C270 (VecyProps): refinement of sorted training to training in the caller's order, with a simulation for permutations (VecyProofs); normal equations and completed squares; the quadratic bound of C131; an invariant of one corpus for the refutations of C267.
C271-C277 (UyvProps): an invariant of training for C271; normal equations, with a Sylvester-type identity and a rank-one correction for the latent map (C272); EM by Jensen's inequality (C273); the bounds of Bouchard and Jaakkola as in C231-C236 (C274, C275); induction over iterations with ceilings of real powers (C277).
C278-C282 (OldProps): normal equations (C278); a chain of nine steps, each of which is the best or an improvement, then induction over iterations (C279); the bounds of Bouchard and Jaakkola (C281, C282).
C283 (OldBoundProps): the entropy of the assignments and the expectation of their logarithms add up to the logarithm of the mass, then an identity of sums. C284-C285 (UyProps): induction over iterations; normal equations and ridge regression. C286 (OldVecyProps): a name that no environment has, for all values and outcomes.
C287 (YvBoundProps): an identity of sums over the bound of C171; two states that are ordered the wrong way, and a covariance that collapses.
C288 (MtmBoundProps): the expectation of scores and the entropy of their softmax add up to the logarithm of the mass; the diagonal of the sum over pairs of links.
C289 (UyvBoundProps): the expected logarithms and the entropy of the shares; two vocabularies that are ordered the wrong way.
C290 (UyBoundProps): quadratic forms as sums over pairs of topics; two covariances that are ordered the wrong way.
C291-C294 (LeftProps): sums over words and topics swapped; derivatives along each coordinate by the chain rule, and the inverse of a diagonal plus a constant; the zero in the prior among the arguments of the draw.
C295 (PureProps): invariants of the documents' loop and of the two arrays by induction; one topic and two documents computed.
C225 (BohReportProps): what is reported, as densities, the log probability of the words and an excess; sums exchanged and the softmax's normaliser taken out of the logarithm.
C226 (LinkReportProps): what mtm3 reports, as densities and a rest that does not depend on the covariances; without links the rest is given for each document by exchanging sums.

No property above is considered inexpressible; where floating point matters
the statement is about exact arithmetic and this is listed as a limit below.

### 2.2 Status

`partial` means that part of the statement is proved and the rest is not, or is
refuted: a theorem whose name ends in `_refuted` gives a witness on which the
statement fails in the model. The remarks say which.

<!-- status -->
| id | property | status | remarks |
|----|----------|--------|---------|
| C01 | Each cross-validation fold partitions the corpus | proved | All corpus sizes, fold counts and fold ids. |
| C02 | Over all folds every document is queried, and exactly once when the fold count divides the corpus | proved |  |
| C03 | Query sets of different folds are disjoint | partial | Refuted: false unless the fold count divides the corpus size; exact characterisation proved. |
| C04 | cross_valid_split keeps words, features, categories and order of a document together | proved | Success is proved for two or more documents with array categories. |
| C05 | Row coherence is preserved by every history of dataset operations | proved | Histories over all public operations, arbitrary shuffles. |
| C06 | prune_and_shuffle keeps exactly the documents meeting the thresholds | proved | Square non-negative link matrices; includes termination and maximality. A one-document corpus failing the word test raises instead (refuted variant). |
| C07 | The order of a dataset always refers to the rows originally read in | partial | Refuted: a second prune_and_shuffle, or loading with an order, breaks it. Proved for at most one pruning before any split. |
| C08 | Limit truncates the dataset | partial | Refuted: limit leaves the matrices alone and only shortens the order. |
| C09 | Category file grouping recovers the per-document category lists | proved |  |
| C10 | The undirected link graph is symmetric and carries both directions | proved |  |
| C11 | Binary link matrix has ones exactly at the non-zero links | partial | Refuted by stored zeros and repeated coordinates; proved for canonical matrices and after conversion to undirected. |
| C12 | After add_intercept_to_feats_if_required the features contain a constant-one column | partial | Refuted by a column of mean one that is not constant; proved for features of at most one; idempotence proved in general. |
| C13 | words_with_min_freq keeps exactly the words occurring in enough documents | proved |  |
| C14 | Document completion conserves every token | proved | Signed or floating word counts; includes that it returns without a word threshold and which integer is chosen for each stored count. |
| C15 | Document completion never yields negative counts | partial | Refuted: large jitter makes either half negative; exact condition proved. |
| C16 | Document completion with a minimum-words filter returns both halves | partial | Refuted: whenever the filter removes a document the call raises; proved when it removes none. |
| C17 | A folded link split divides the links of each document | partial | Refuted for documents below the minimum, whose links are copied to both halves; proved for the others. |
| C18 | Over all folds every link of an evaluated document is queried exactly once | partial | Refuted: leftovers of the division are never queried; proved when the fold count divides the number of links; exact fold of each link proved. |
| C19 | The random link-prediction split returns two halves adding up to the link matrix | partial | Refuted: the split point is a float, so the call always raises. |
| C20 | split_on_feature separates documents with the feature from those without | partial | Refuted for several features, for features of both signs and without links; proved for one feature that is zero or positive. |
| C21 | The two column-dropping helpers agree | partial | Refuted for column indices outside the matrix; proved for all others. |
| C22 | soft_split_on_indices partitions the stored entries | proved |  |
| C23 | Mean average precision lies in [0,1] and is 1 for perfect rankings | partial | Range, when it returns, and value for perfect rankings proved. Refuted side claim of the docstring: absent links are not given zero. |
| C24 | Precision at m never exceeds one | partial | Refuted: m+1 links are counted but m divides; proved at most (m+1)/m, and at most one when no document has more than m expected links. |
| C25 | Recall at m lies in [0,1] and does not decrease with m | proved |  |
| C26 | mean_prec_rec_at works with its default groups and leaves its arguments alone | partial | Refuted: default groups raise as soon as a document has a link, and the caller list is appended to; exact condition for returning proved. |
| C27 | Mean reciprocal rank lies in (0,1] and fails only if nothing was found | partial | Proved for rows without repeated columns. Refuted for rows with repeats: a repeat is skipped while scanning. |
| C28 | Group document counts add up | proved |  |
| C29 | Combining fold results gives the document-weighted mean | partial | Value, order independence of the value, exact failure condition, and parts-combine-to-whole proved; refuted that success is independent of fold order. |
| C30 | Sparse vec-transpose computes the vec-transpose and undoes itself | proved | Includes well-formedness and shape of the result, the numbers, and the error for stored elements in left-over rows. |
| C31 | The vec-transpose permutation matrix maps vec(A) to vec(A') | proved |  |
| C32 | csr_indices lists the coordinates of every stored element | proved |  |
| C33 | Element-wise products with a dot product honour the row range | partial | Refuted: for a range not starting at row zero the elements are read from the top of the matrix; exact behaviour for every range proved; correct from row zero and for the kernels without a range. |
| C34 | The overflow-safe log(1+exp(x)) is within its stated tolerance of the true value | proved | Real arithmetic. |
| C35 | Row-wise softmax returns a probability distribution | proved | Real arithmetic; rows and columns; includes the relation with log-sum-exp. |
| C36 | Convergence is reported only when the bound has flattened | partial | Refuted: a steeply falling bound counts as converged; exact condition proved; the claim holds for bounds that did not fall. |
| C37 | Training runs exactly the requested number of iterations | partial | Refuted: a logging frequency above the iteration count runs iterations + frequency; exact otherwise. Variational training in double precision always raises a TypeError; the stochastic trainer raises one unless there is a single segment (single precision) or a convergence test succeeds (double). |
| C38 | CVB0 topic counts stay equal to the sums of the token assignments | proved | Exact (rational) arithmetic. Holds for any priors and at every point, including abandoned sweeps; with positive priors no sweep is abandoned. |
| C39 | A CVB0 query leaves the trained model's counts as they were | proved | Exact arithmetic, positive priors. |
| C40 | Expanding a count matrix to tokens preserves each document's bag of words | proved | For counts that are not negative; whatever the random numbers. |
| C41 | Gibbs sampling counts match the assignments at all times | proved | Up to 256 topics, as the code asserts; exact integers. |
| C42 | Thinning records the stated number of samples and burn-in records none | proved | Includes the contents of the sums. |
| C43 | Querying a Gibbs model does not change its word distributions | partial | Refuted: the sums stay but are divided by the number of query samples; exact scaling proved; holds when the numbers agree. |
| C44 | The default mixture Gibbs plan is runnable for every iteration count | partial | Refuted: the default plan logs, and logging calls a name that is not defined; without logging it fails for two to nine iterations (division by zero). Exact conditions proved. |
| C45 | The scikit-learn wrapper refuses to transform or score before being fitted, and fitting twice on the same data resumes | partial | The wrapped modules are arbitrary functions that may raise; proved over all call histories. Refuted part: a failed first fit leaves a random model with which transform then works. |
| C46 | The point log-likelihood of a mixture is a log-likelihood | partial | Real arithmetic. Proved for admixtures; refuted for mixtures: the logarithm is missing, the score exceeds the log-probability by at least one per document; exact value proved. |
| C47 | Perplexity cross-validation averages exactly the folds that finished | proved | Work of a fold (training, inference, likelihood) is an arbitrary function that may raise. |
| C48 | truncate-folds limits the number of folds evaluated in hashtag evaluation | partial | Refuted: the counter of finished folds is never raised, all folds are run; exact behaviour proved. |
| C49 | Mini-batch variational training visits all documents evenly | partial | Refuted for one pass of mini-batch training: it visits D//batchSize+1 batches, so some documents twice. Proved: batch training visits every document exactly once per iteration; over any run two documents differ by at most one visit; a mini-batch pass visits every document at least once. |
| C50 | A variational LDA query leaves the model unchanged | partial | Refuted: query calls train, which ignores updateVocab and overwrites the word parameters. Proved: after a batch query the topics hold the prior plus the words of the query documents, whatever they were before. |
| C51 | Dirichlet parameters and means convert back and forth without loss | proved | Real arithmetic. |
| C52 | Undirected links are each considered once | proved | Proved for rows with sorted indices, which is the quantifier of the claim. Also shown that unsorted rows lose links. |
| C53 | Link predictions retain every expected link | partial | Proved over the reals for the LRO, LDA-similarity, MTM and RTM predictors, and for TF-IDF when no document has zero weight. Refuted for documents of zero TF-IDF weight, whose score is NaN, and for minima stored in single precision, the default. |
| C54 | Result files written by the evaluation are found by the report generator | partial | Refuted for correlated topic models (never found) and for folds from ten on; exact condition proved for side-topic models. |
| C55 | dtype strings parse to the type they name or are rejected | partial | Proved for single types; refuted part: more than two types separated by colons are not rejected. |
| C56 | Quoted text round-trips through CSV | partial | Refuted: quotation marks are doubled twice; round trip proved exactly for text without any. |
| C57 | eliminateParentheses removes exactly the parenthesised parts | proved | Proved, including unbalanced text. |
| C58 | User selection meets its document target whenever enough documents exist | partial | Refuted: the early exit gives every group the rounded-down share, so the total can miss the target by up to one less than the number of groups, and asking for more than there is raises ZeroDivisionError. What is proved: no allotment exceeds its group or is negative, and the total is within the number of groups of the target. |
| C59 | Rolled-up averages are document-weighted means | proved | Rational arithmetic. |
| C60 | The perplexity script and the DataSet class agree on folds | partial | Refuted: the script queries the previous fold of the class. |
| C61 | Side-topic training returns all per-document state in the caller's document order | partial | Proved over the reals for means, variances and lengths: training agrees with training in the order of the caller, one document at a time. Refuted for the topic weights, which are neither sorted nor put back, and so for the independence of the result from the order of the documents. |
| C62 | DMR sampling never writes outside its sample buffer | partial | Refuted: with default plans training overflows the array below 50 iterations and queries overflow it from 20 iterations on. Proved exactly when runs stay inside. Exact rational arithmetic; the optimiser is any function that keeps the priors positive. |
| C63 | Stochastic updates keep distributions on the simplex | partial | Refuted for the schedule: the first step of the default plan is above one, and so can be those of the variance and Amari rates. Proved for the update, for delays of one or more and for all later steps. |
| C64 | Topic responsibilities of the correlated models conserve tokens | proved | Proved over the reals for the correlated model: token and word conservation for all positive weights, vocabularies for whole training runs in both modes. The first update of side-topic training is treated under C61 and C136. |
| C65 | Link columns that are not documents survive pruning | partial | Refuted with a link threshold; proved without one. |
| C66 | prune_and_shuffle works on datasets without categories and does not leave a half-changed dataset | partial | Refuted: the call always raises without array categories, and leaves a half-reordered dataset. |
| C67 | auto_convert_to_sparse converts to sparse | partial | Refuted: nothing is converted unless debug is set; exact characterisation proved. |
| C68 | Mirroring one triangle of a symmetric link matrix gives the matrix back | partial | Refuted: self-links are doubled; proved off the diagonal, and symmetry proved in general. |
| C69 | The dense vec-transpose agrees with the sparse one and stays inside its buffer | partial | Agreement and full coverage proved when p divides the row count; otherwise always a write outside the buffer (refuted). |
| C70 | A given output matrix receives the result | partial | Refuted: in double precision over the full range the given matrix is ignored; proved for all other calls. |
| C71 | The entropy of a dot product does not depend on the element type | partial | Refuted: the fallback takes the logarithm of another number and raises with more documents than topics. |
| C72 | The overflow-safe log(1+exp(x)) is monotone | partial | Refuted at the upper seam; proved up to twice the tolerance. |
| C73 | scaledSelfSoftDot weighs each row by its scale | partial | Refuted: no variant uses the scale; proved for scales of one. |
| C74 | safe_log is the logarithm cut off below, in place or not | proved | Real arithmetic. |
| C75 | The weighted sum of log(1+exp) stays within the accumulated tolerance | proved | Real arithmetic for the sums. |
| C76 | selfSoftDot computes the same in compiled and interpreted form | proved | Real arithmetic. |
| C77 | safeDet is the maximum of the determinant and a tiny positive number | proved | Real arithmetic. |
| C78 | Continuing to train keeps the counts of the current assignments | partial | Refuted: the corpus is counted twice; exact totals proved. |
| C79 | CVB variances are the sums of the token variances | partial | Refuted for single precision (a factor is missing); proved for double precision and for the expected counts in both. The probabilities are arbitrary. |
| C80 | Topic totals of a model stay the sums of its word counts | partial | Proved for CVB0 and for first training of CVB; refuted for further training of CVB, which overwrites totals with variances. |
| C81 | Measuring the likelihood leaves the counts as they were | proved | Exact arithmetic. |
| C82 | Iteration numbers reported with measurements are those of the last iteration done | partial | Refuted: one segment too low, except for the last; exact numbers proved. |
| C83 | Gibbs training and querying select a topic at every draw | partial | Refuted for a draw of exactly zero (write before the row); proved for all positive draws. |
| C84 | Gibbs sampling draws from the full conditional | proved | Exact arithmetic; positive draws. |
| C85 | Every Gibbs sweep resamples every token exactly once | proved |  |
| C86 | Averaged Gibbs topic and word distributions are distributions | partial | Refuted for default plans below five iterations (no samples, NaN); proved whenever a sample is taken. |
| C87 | Mixture Gibbs memberships are drawn given the other documents' current memberships | proved | Bookkeeping only: the multinomial draw is arbitrary. |
| C88 | Mixture Gibbs training returns the average of its samples | partial | Refuted: the samples are collected and dropped, the last state is returned; exact behaviour proved. |
| C89 | fit_transform is fit followed by transform for every kind of input | partial | Refuted for matrices: each call wraps them anew, so the second half always raises a ValueError. Proved for datasets. |
| C90 | It is okay to score with neither assignments nor query state | partial | Refuted: the expected methods raise an UnboundLocalError; never succeed. |
| C91 | Transforming and scoring leave the model alone and scoring does not affect resuming | partial | The model part is proved (assuming that module queries return the model given); the resuming part is refuted. |
| C92 | Finding a query state without persisting it leaves the persisted one | proved |  |
| C93 | Training the mixture of multinomials conserves documents and words | proved | Real arithmetic, any function for digamma, without measurements (see C96). |
| C94 | Querying the mixture of multinomials depends on the model and the documents only | partial | Proved for every iteration count but zero, which raises (refuted). Any function for digamma. |
| C95 | The expected log-likelihood of the mixture of multinomials is the log marginal probability | partial | Proved for the prior, for any function with the recurrence of loggamma; with a query state it always raises (refuted). |
| C96 | The mixture of multinomials can be trained with the default plan | partial | Refuted: measuring the bound reads fields that the model lacks; raises unless the first iteration converges. |
| C97 | The point log-likelihood of the mixture of multinomials is a log-probability | proved | Real arithmetic. |
| C98 | Perplexity is the inverse geometric mean probability | proved | Real arithmetic. |
| C99 | A single-fold perplexity run does not save its model | partial | Refuted: the model is saved. |
| C100 | The fold options decide how many folds each evaluation runs | partial | Proved for the in-sample driver; refuted for the tag driver, which with the default runs no fold and raises. |
| C101 | Hashtag evaluation hides hashtags from the query documents | partial | Refuted: the driver passes a proportion of zero, nothing is moved; moved completely for a proportion of one (proved). |
| C102 | Hashtag precision and recall are fractions | partial | Proved for counts of zero and one; refuted for larger counts. |
| C103 | Tag evaluation distinguishes better from worse models | partial | Refuted: every measure is independent of the model, proved for all models. |
| C104 | The popular words are the most frequent candidates | proved |  |
| C105 | Model file names identify the model's configuration | partial | Proved for a fixed kind of model; refuted across kinds, since slashes and dashes become the same character. |
| C106 | The report generator accepts the model names it documents | partial | Refuted: all documented names are rejected; the set of accepted names is proved. |
| C107 | Metadata fields are closed by their own brace | proved |  |
| C108 | Feature masks are read back as written | proved | int() is any function that reads decimal numerals. |
| C109 | Scores are the likelihoods that their names describe | proved | The wrapped modules are arbitrary functions that may raise. See C90 for the expected methods with neither kind of assignment. |
| C110 | Fit and transform run the number of iterations asked for | proved | The wrapped modules are arbitrary functions that may raise. |
| C111 | Users are selected until each group's allotment is reached | proved | The total of all groups is within the number of groups of the target, as C58 is. |
| C112 | Counts read for users are the totals of their lines | proved | Text is a list of 8-bit characters. |
| C113 | Printed result tables are read back | partial | Refuted: a table without documents of three or more (or of five or more) links makes the reader divide by zero. All other tables are proved to be read back. The number formats are arbitrary functions whose text has no bar and is read by float(). |
| C114 | Variational training accounts for every token | partial | Refuted for the Amari rate, where the conversion to parameters is applied twice. Proved for batch training and, for documents, for the kappa rate. Real arithmetic; digamma arbitrary. |
| C115 | Stochastic training keeps Dirichlet parameters positive | partial | Refuted for models that have been trained before under the default plan. Proved for delays of at least one, and for new models under any positive delay. |
| C116 | Mini-batch training gives topics the weight of the corpus | partial | Refuted: mini-batch gradients are not scaled to the corpus. |
| C117 | The learning-rate algorithm asked for is used | partial | Refuted: a batch size selects the kappa rate whatever is asked for, and no batch size makes the other rates divide by zero. |
| C118 | New models have a proper word distribution in every topic | partial | Refuted for termination: documents without words make seeding loop forever. Proved that topics are distributions and that seeding ends if no document is empty. |
| C119 | New query states account for every token | partial | Refuted for a single document, whose length becomes a scalar. |
| C120 | TF-IDF document similarity is a cosine | partial | Proved for documents of one corpus with floating-point counts. Refuted for held-out documents, which are weighted by their own document frequencies, and for integer counts. |
| C121 | LDA document similarity ranks by Hellinger distance | proved | Proved over the reals; the ranking is strict for distances above the smoothing constant. |
| C122 | Link scores of the matching topic model are a distribution over targets | proved | Proved over the reals. |
| C123 | Querying a relational topic model returns topics | partial | Refuted: a query of at least one document with at least one iteration always raises TypeError. |
| C124 | Relational training accounts for every token | proved | Proved over the reals for any weight update and any digamma. The weight update itself is an oracle. |
| C125 | Variational training performs the mean-field updates | proved | Proved over the reals: whole training runs for LDA, one document update for relational models. |
| C126 | Regression-topic sampling keeps its tallies and reports distributions | partial | Proved when all priors are positive; refuted for documents without features (write before the start of a row) and for negative priors (negative probabilities). |
| C127 | Every counted sample is stored for the weight update | partial | Refuted: every round overwrites the slots of the one before. Proved that the slots hold the last round and zeros, and that all samples are there exactly when there is at most one round. |
| C128 | Topics are sampled under the prior that the weights are fitted for | partial | Refuted: sampling uses x.w, the objective exp(x.w); they differ for all features and weights. |
| C129 | Querying a regression topic model leaves its word distributions alone | partial | Refuted unless the numbers of samples agree; proved that the distributions are scaled by the ratio of the numbers of samples. |
| C130 | The regression weights are fitted to the posterior with its exact gradient | proved | Proved over the reals; gammaln is any function whose derivative is the digamma used. |
| C131 | Querying a correlated topic model never makes a document's topics less probable | proved | Proved over the reals for the full-covariance mode of both modules; scipy.linalg.inv is any function that inverts the matrices it is given. |
| C132 | Training a correlated topic model never lowers the joint probability | proved | Proved over the reals for the full-covariance mode (with the identity covariance that the code uses); the fast mode is not covered. |
| C133 | Training a correlated topic model estimates the covariance of topics | partial | Refuted: the covariance is replaced by the identity in every iteration. |
| C134 | A correlated-topic query returns what it inferred | partial | Proved for means in the full mode; refuted in the fast mode, where the softmax of the initial means is returned; the variances are never returned. |
| C135 | Correlated topic models accept corpora of one document | partial | Refuted: np.squeeze turns the length of a single document into a scalar. Proved for other corpora. |
| C136 | Each step of side-topic training makes every document's topics more probable | proved | Proved over the reals for every inner step whose weights belong to its means, that is, for every step but the first; scipy.linalg.inv is any function that inverts positive definite matrices. |
| C137 | Side-topic training counts each occurrence of a word once | partial | Refuted: the first update uses the raw counts, later ones divide by probabilities under old weights. The exact counts are proved, and that they are right when the weights no longer change. |
| C138 | The scores reported for link prediction are means over everything evaluated | partial | Proved for mean average precision and tables (groups that have documents; exact rationals). Refuted for the mean reciprocal rank, whose folds are weighted by documents, and for finishing: a group of sizes without documents in the first two folds always ends the run with a division by zero. |
| C139 | Link prediction for unseen features never trains on what it asks about | proved | Training, prediction and saving are arguments; feature values zero or above 1E-30. |
| C140 | A saved LDA model gives recommenders the topics of their documents | partial | Proved for models trained on the whole dataset and for refusals. Refuted for models saved by runs over several folds, which are accepted with the topics of the training part only, and for runs without a saved model, which always raise TypeError. |
| C141 | Folds computed in floating point are right | proved | Doubles rounded to nearest even (Flocq). |
| C142 | Ranking metrics computed in floating point are fractions close to the true ones | proved | Sums of up to 2^53 terms. That rounding does change the mean reciprocal rank is shown by an example. Scores and the ranking itself are as in C23 and C27. |
| C143 | Document completion in floating point conserves every token | proved | No largest double; jitters are arbitrary reals, the proportion rational. |
| C144 | Fast LDA inference solves the mean-field equations | partial | Refuted for every increasing function with the recurrence of digamma; closed form and exact condition proved. Three passes are made and the last equals the first. |
| C145 | Topics of a document depend only on the document and the model | partial | Refuted for the number of documents: D/K is added to the prior of every topic. The rest is proved. |
| C146 | Topic counts add up to prior plus tokens | partial | Refuted: the total also contains the number of documents; exact total proved. |
| C147 | Fast LDA training conserves words | proved | All words must be in the vocabulary for the sums per topic. |
| C148 | Looking at a fast LDA model does not change it | partial | Refuted: the accessors divide the arrays in place. Idempotence and the case of normalised models proved. |
| C149 | How often progress is logged has no influence on training | partial | Refuted for every increasing function with the recurrence of digamma; training is exactly iterations and normalisation in turn; equal for frequencies with one segment. |
| C150 | A trained fast LDA model can be queried | partial | Refuted: single precision is passed to a function for doubles; double precision training fails unless it is stochastic and converges early. |
| C151 | Stochastic training learns from the data | partial | Refuted for every positive batch size; with batch size zero equal to plain iterations. |
| C152 | The bound is determined by the model and the data | partial | Refuted for documents of different lengths; proved for equal lengths. Covers the terms that use the tokens; the others are an arbitrary function of model, topics and data. |
| C153 | A matrix-variate topic model can be trained | partial | Refuted for all corpora; the vocabulary of the caller has been updated by then. |
| C154 | Topics of mtm2_vb are distributions and never fit worse | proved | Two or more documents. |
| C155 | Covariances of mtm2_vb stay positive definite | proved | Two or more documents; without logging or with no more topics than documents. |
| C156 | Links are attributed to topics by their probabilities | partial | Out-links proved; in-links refuted (totals and symmetric links proved). |
| C157 | Training mtm2_vb improves the topics of documents | proved | The words enter with the new vocabulary, the links with the old in-topics. |
| C158 | Training mtm2_vb does not worsen the topics that attract links | partial | Refuted; the case without links is proved. |
| C159 | The document covariance chosen for mtm2_vb is used | partial | Refuted: always 10. |
| C160 | Queries of mtm2_vb infer topics from words | partial | Improvement for documents without out-links, prior mean proved. Refuted: the prior variance and the independence of out-links; only the number of out-links matters. |
| C161 | Queries of mtm_vb improve, and can be resumed | partial | Improvement proved. Resuming refuted for mtm_vb, proved for the correlated topic model up to 21 iterations. With fastButInaccurate the softmax of the initial means is returned. |
| C162 | The log-likelihood of the matrix-variate models is that of words and links | partial | Refuted: distributions over documents are read transposed, beyond the array when topics outnumber documents. Proved: inside otherwise, and exact without links. |
| C163 | Uncertainty of documents' topics under Bouchard's bound | proved |  |
| C164 | Topics of the Bouchard models are distributions and never fit worse | proved | The words of stm_yv_bouchard enter with the old topics. |
| C165 | Bouchard's bound holds and the topics of documents improve it | proved | The training of ctm_bouchard up to the shift that makes its first topic zero; queries of stm_yv_bouchard for diagonal covariances, as training makes. |
| C166 | Iterations of a query do not lower the bound | partial | Refuted: the variance is squared. Proved with the root of the second moment in its place. |
| C167 | The offset of the bound is the best one | partial | Proved for two topics; never for more. |
| C168 | Topic numbers mean nothing | partial | Refuted: the first topic is always zero (C168_first_topic), and so is its prior mean after two iterations. |
| C169 | Any number of iterations can be asked for | partial | Proved for multiples of the logging interval; for other numbers up to 39 and 59 (interval 10) training always fails, with interval zero always. |
| C170 | Queries of the Bouchard models do not make topics less probable | partial | Refuted for both, for any number of iterations. |
| C171 | The reported bound is a bound | partial | Refuted; C171_bound_is says what is reported. |
| C172 | Documents without words get the prior's topics | proved |  |
| C173 | The regression of stm_yv_bouchard is the least-squares optimum | proved | With a correct inverse of symmetric positive definite matrices. |
| C174 | Debugging output and corpus size do not decide whether the Bouchard models run | partial | Refuted; the other theorems give the exceptions. |
| C175 | Batch training gives finite topics | partial | Proved if all documents have one length; otherwise the longest is always lost, and two iterations always raise ValueError. |
| C176 | Batch training stays within its buffers | partial | Proved for corpora up to the buffer; larger ones always read outside it. |
| C177 | Batch training makes topics more probable | proved | For documents of one length, the only ones that work (C175). |
| C178 | Batch training's vocabularies never fit worse | partial | Proved from the second iteration; the first only smooths the start, whatever the words, and can fit worse. |
| C179 | Trained states can be used for queries | partial | Fails always unless there is one document or as many as the buffer has rows; new states work. |
| C180 | Batch training reports its measurements | partial | Proved: values and iterations agree. Refuted: other numbers than multiples, and after early stopping the likelihoods are not cut off. |
| C181 | Queries of the batch model do not make topics less probable | proved | With a correct inverse. |
| C182 | The model with a prior over weights as a matrix can be trained | partial | It never returns; C182_exceptions says with which exception. |
| C183 | New query states of that model can be used | partial | Always AttributeError. |
| C184 | Matrices as vectors and back | partial | vec proved; unvec always fails, as it divides to a float. |
| C185 | The learned prior over topics fits the corpus better | partial | Refuted: every update lowers every entry, whatever the corpus; so does training. C185_less_likely: an even corpus always gets less likely. |
| C186 | Stronger regularisation makes weights smaller | partial | Refuted: the strength is one minus what is given. C186_fixed_points and C186_regularizer_alone say what happens instead. |
| C187 | Weights of rtm follow the gradient | partial | The part for links is the gradient; that for unlinked pairs is the negative of that for links, and too weak when a link is predicted. |
| C188 | Invented unlinked documents are documents | partial | Off by the sum of the prior, 5 + K/2 by default. |
| C189 | Priors of rtm can be given as documented | partial | Only no prior or one entry too many work, and then there is never a query state. That numpy wants positive parameters for a Dirichlet draw is its documented behaviour. |
| C190 | Priors estimated by the Gibbs sampler are positive numbers | partial | Positive if what is uninitialised is zero and every document has every topic; empty documents always give NaN (without rounding), and so can uninitialised memory. |
| C191 | The bound of lda_vb_python is a lower bound of the log probability of the corpus | proved | gammaln and digamma are any functions with the properties that characterise them (Bohr and Mollerup), which are constructed in GammaWitness. |
| C192 | Word priors work for training and for the bound | partial | Exactly Python numbers work: with a numpy number the bound raises an IndexError, with a vector training raises a ValueError. |
| C193 | Batch training of lda_vb_python does not lower the bound | proved | The slack is K times 1e-300 for each word. |
| C194 | The figures of the collapsed models are bounds and rank states like bounds | partial | They are lower bounds; but the entropy is subtracted instead of added, so they rank states wrongly. |
| C195 | The bound of lda_vb is a lower bound whatever memory holds | proved |  |
| C196 | Gibbs training samples from the posterior: it leaves it unchanged | proved | Draws are uniform on (0,1] (a draw of zero is refuted in C83); exact rationals. |
| C197 | Gibbs training forgets where it started | proved |  |
| C198 | What Gibbs training averages converges to the posterior mean | proved | For the sampling sweeps after burn-in, from any assignment that burn-in ends in. |
| C199 | Gibbs queries sample topics from their posterior given the model's word distributions | partial | Refuted: the query adds its own first assignment to the counts of the model, so it samples given word distributions that depend on it. Given the resulting distributions all claims are proved. |
| C200 | Training a mixture of multinomials raises a bound on the probability of the corpus | partial | Real numbers, for any function that satisfies the laws of the logarithm of the gamma function and its derivative (GammaWitness has one). Refuted: the likelihood that the model reports may fall. |
| C201 | A query of a mixture of multinomials samples from the law of the components given the words | partial | Real numbers; draws uniform on (0,1]. Word probabilities below the floor of safe_log count as the floor. Refuted: the law is that of a prior one less than the model has. |
| C202 | Documents of a mixture gather in components | partial | Real numbers. Refuted: with ten or more components the default prior is at most one: empty components get the floor of safe_log only; with few documents the total is negative and documents avoid the components that have members; when it is zero (16 components, 4 documents) every sweep but the first raises ValueError. |
| C203 | The scale that latent random offsets learn fits the links best | partial | Real numbers; no document links to itself. Refuted: the scale that is returned was best for the offsets of the iteration before; it may be negative; what is documented as variances are used as precisions. |
| C204 | The offsets that latent random offsets learn are the best | partial | Real numbers; no document links to itself; closed form of the offsets. Refuted: line 217 adds up the topics of the documents that link here and multiplies by the topics of this document, where the square of the topics belongs, and line 222 lacks the factor noiseVar: training moves away from a perfect fit. |
| C205 | Training latent random offsets succeeds for every corpus | partial | Real numbers; no document links to itself. One iteration succeeds if a link joins documents with a topic in common. Refuted: without links training raises ValueError. |
| C206 | Offsets do not depend on the order of the documents, and a query leaves the model alone | proved |  |
| C207 | Between weight updates regression topics are sampled from their posterior | partial | Exact arithmetic; independent uniform draws; the chain of sweeps, its invariant law, convergence in total variation from every start and in mean square for averages, and what training records. The law is that of priors x.w. Refuted: it is not the law of the fitted model, whose priors are exp(x.w). |
| C208 | Queries of a regression topic model sample topics from their posterior | partial | As C207, with the word counts of the model held fixed; refuted: the counts a query works from contain its own first assignment and the prior over words once more, so that the law is not the one given the word distributions of the model. |
| C209 | Updating the regression weights raises their posterior probability | partial | Real numbers. Each topic alone, and one changing topic, improve. Refuted for all topics at once, with exact optima: all topics are optimised against the old weights of the others. |
| C210 | Command-line options configure what they are described to configure | partial | Options as parsed; what parameters are bound to by Python calls. Refuted: --vocab-prior becomes the prior over topics of lda_vb and lda_svb; --log-freq and --min-vb-change have no effect; --debug False switches debugging on; only the evaluation of perplexity queries for --query-iters iterations. |
| C211 | The models that the command line documents are the ones it offers | partial | Refuted: three accepted names are not documented; lda_svb without a batch size is lda_vb. |
| C212 | Every evaluation can be run with every model it makes sense for | partial | Calls and fields only, not what the functions do. Refuted: mom_em and mom_gibbs (newQueryState takes a third argument) and lda_cvb0 (no log_likelihood) cannot be evaluated; the two families of link evaluations call link functions with different numbers of arguments. |
| C213 | Every entry of a file of results is read with its own figures | partial | float() and the formatting of numbers are arguments, as in C113; lines end with a line feed. Refuted: without a line between two entries the name of the second is lost and its first line is taken for the name; an entry without mean average precision (as printed by link_split_prec_rec) hides all entries after it. |
| C214 | The results read from the output of an evaluation are its final results | partial | Refuted: the tables and the perplexity read are those of the first fold, the means those of the final results, because the means of the folds are printed with a blank before the colon. |
| C215 | The comma-separated file has a line of eleven cells for every algorithm, group and m | partial | str() of numbers is an argument. Refuted: a number of topics with a comma inside gives twelve cells; missing means are written as -1. |
| C216 | The record of an arXiv abstract is what its fields say | partial | int() is an argument; every field of the three at most once. Refuted: a line without a colon raises IndexError, which is not caught, so that the whole conversion stops. |
| C217 | Authors separated by commas or by the word and are read one by one | partial | Refuted: with a comma before it the word and becomes part of the last name. |
| C218 | Rewriting an author's name keeps its letters and puts the surname first | partial | Letters: all characters but blanks, commas and full stops. Refuted: in a name of two words the particle is taken for the given name; a single word with a full stop at its end has an empty surname. |
| C219 | Every author of the converted papers has one number | partial | Refuted: a name with a semicolon, such as an HTML entity, gives two authors. |
| C220 | The copy of a model equals it and does not share what training changes | partial | A model whose copied parameters are arrays, or None where allowed. Refuted: a trained model of lda_cvb is copied with means in place of variances; a number for the prior of lda_vb cannot be copied. |
| C221 | All folds of an evaluation start from the same model | partial | Refuted: in lda_gibbs, with learning of the priors, the prior over words is shared and written to, so that the second fold starts from what the first learnt. |
| C222 | The topics of documents are distributions | partial | Counts that are not negative, and not all zero for any document. Refuted: in ten modules there is no topicDists, or it raises AttributeError for every state. |
| C223 | A table of numbers in a text file is saved as the matrix of its numbers | partial | float() and the rounding to float32 are arguments. Refuted: after a first line of whole numbers what follows the point is lost; a line with one number fills a row; a last line without an end makes the conversion fail. |
| C224 | The sparse and the dense conversion of a text file agree | partial | Refuted: negative numbers are left out; a line that is too short is filled with zeros by one conversion and refused by the other. |
| C225 | The bound reported by the models with Böhning's bound is a lower bound of the log probability of the words | partial | Proved what is reported: densities with the determinant for its logarithm, the log probability of the words, and an excess. Refuted for every corpus of documents that are not empty: the value of var_bound exceeds all bounds. For the correlated topics and mtm2 with the covariance that training sets or a new model has; for side topics with the inverse of the covariance small enough for the lengths of the documents. Laws of topics have finitely many values. |
| C226 | The bound reported by mtm3 is determined by the topics and is a lower bound of the log probability | partial | Proved what is reported: densities of the topics with their entropies and a rest that depends on words, links and means only, given exactly for corpora without links. Refuted for every corpus without links and every state: adding a number to all means leaves the topics as they are and adds twice that number for every word, so the value is no bound. |
| C227 | New correlated and matrix-variate models have a full distribution over words in every topic | partial | Proved for mtm2 and mtm3. Refuted for the correlated models: without words there is no end, and with the bound of Böhning the first topic gives no probability to words that do not occur in the corpus; the other topics are proved full, and an end within a thousand draws a topic if no document is empty. |
| C228 | A state made from the topics of an LDA model has those topics | proved | Topics that are all positive. The random numbers are in [0,1). |
| C229 | Evaluating mtm3 with a saved LDA model leaves that model alone | partial | Proved for the sampler. Refuted for variational models: their array is used as it is and training writes to it, so every fold starts from what the one before has learnt. Training is an arbitrary function of the words, in the refutation one iteration of mtm3. |
| C230 | An estimator can be cloned and copied, and settings can be searched | partial | Proved: an estimator as constructed can be cloned, and a clone has the settings of the original; exactly which settings can be cloned. Refuted: a tolerance or a number of query iterations set to zero cannot be cloned, copy() always raises, and setting iterations does not change those of transform. |
| C231 | The seed of an estimator determines its model | partial | Proved: constructing (or assigning a seed) and fitting at once. Refuted: anything that draws or seeds in between, such as constructing another estimator, decides instead; LDA_GIBBS ignores its seed. Training is an arbitrary function of the stream of numpy, that of LDA_GIBBS of the streams of numpy and the C library. |
| C232 | Settings of an estimator reach the training | partial | Refuted: LDA_SVB ignores batches, MOM_GIBBS burn-in and thinning, and a burn-in of zero given to a call is ignored. |
| C233 | A prior over topics is a number or a vector and is used as given | partial | Proved of what is accepted, except for the collapsed models, which use the mean of a vector (refuted). Refuted: numbers for LDA_CVB0, LDA_CVB and LDA_VB; integers and numpy numbers for most; vectors of doubles for LDA_VB and LDA_SVB. Rounding is an arbitrary function. |
| C234 | A prior over words is a number or a vector and is used as given | partial | Proved of what is accepted. Refuted: vectors for five kinds; numbers that are not Python floats for LDA_GIBBS. |
| C235 | Every kind of model has every score | partial | Refuted: expected scores for six kinds; perplexity of and given topics for LDA_GIBBS. |
| C236 | Every kind of model takes every corpus | partial | Refuted: a single document for all but MOM_VB; counts of 64 bits for four kinds. |
| C237 | Topics that transform returns depend on the words | partial | Proved from a hundred iterations on, except LDA_VB and LDA_SVB (C150). Refuted below: with fewer than ten the topics are those drawn at the start, are not numbers, or there is an error; LDA_GIBBS gives no numbers below fifty, MOM_GIBBS an error from twenty. One iteration of inference is an arbitrary function of words and topics. |
| C238 | Scores of the wrapped models of scikit-learn and gensim are likelihoods and perplexities | proved | Counts in double precision, probabilities that doubles have room for; real arithmetic. Inference by the libraries is an arbitrary function. |
| C239 | The wrapped models score corpora of any type of count | partial | Proved for double precision, and single precision of the HDP. Refuted: the wrapped LDA needs doubles, the HDP numbers that are not integers. |
| C240 | The wrapped models have the documented options | partial | Refuted: a batch size for LDA is a TypeError (learning_offsetfloat is not an argument of the library), expected scores are not implemented, query states an error. |
| C241 | Training of the wrapped LDA model can be resumed and repeated | partial | Proved for iterations set with the constructor or set_params. Refuted: those passed to fit are ignored, and a second fit of an estimator draws from where the first ended. What scikit-learn does with an estimator is taken from its documentation. |
| C242 | Debugging does not change what is learnt | partial | The result is the same whenever the run ends; it ends if bounds are finite, but for stm_yv_bouchard (cf. C174) and queries of mtm_vb, which always raise. Infinite bounds stop the modules that turn the difference into an integer. Updates are arbitrary functions. |
| C243 | Computing the bound leaves the state alone | partial | Proved for all arrays but expMeans, and for calls in a row. Refuted: expMeans is overwritten in three modules; stm_yv_bouchard restores the means exactly when none is further below the maximum of its document than where exp underflows. Rounding is not modelled. |
| C244 | Debugging output compares the bounds of one run | partial | Proved within a run, and independence for the side-topic models. Refuted for the others, whose first line compares with the last bound of the run before. |
| C245 | The dictionary made for gensim describes the corpus | partial | Proved: what the tokens are (those up to the last word that occurs), when all columns have one, and the counts for stored entries that are distinct and non-zero. Refuted: words after the last one used have no token, so that scoring them reads outside the topics, and the documented names are not used. |
| C246 | Sparse element-wise operations compute with the product of the dense matrices | partial | Values proved for agreeing shapes, and when reads stay inside arrays. Refuted: shapes are checked only by the fallback for whole numbers. Rounding is not modelled. |
| C247 | Sparse element-wise operations accept the number types of counts and of models | partial | Proved: which combinations of types work, and the values for whole numbers. Refuted for counts of whole numbers with parameters in floating point. |
| C248 | The hashtags evaluated are the most frequent ones | partial | Proved for dictionaries of distinct non-empty words. Refuted: a repeated hashtag is returned twice with the frequency of the first; an empty word raises. |
| C249 | Report templates are filled as written | proved | substitute of Python as documented, for names of ASCII. |
| C250 | Every configuration with outputs gets its report | partial | Proved for side-topic models with one-digit folds (cf. C54). Refuted: outputs of correlated models are never found; errors raise; the built-in templates are looked for in a directory that does not exist; several outputs of one fold, and copies, count as folds. Directories are taken to exist. |
| C251 | Reports lead to their outputs | partial | Proved for names of saved outputs. Refuted: directories with an apostrophe break the report; without --lat-sizes the side-topic models raise UnboundLocalError. |
| C252 | Numbering does not matter to LDA | partial | Proved for batches. Refuted for mini-batches: the corpus is gone through in order, and its first documents are visited once more. |
| C253 | Numbering does not matter to correlated topic models | proved | The decision to stop early is taken to depend on the numbers and not the numbering; inv to invert whatever symmetric matrix can be inverted. In training the existence of the inverse is proved. |
| C254 | Numbering does not matter to mixtures of multinomials | proved | At least one topic. |
| C255 | ctm_bohning_fast trains like ctm_bohning | partial | Proved with fastButInaccurate, or as many documents as topics. Refuted otherwise: a product of matrices of different sizes, whose result would not be used, raises ValueError. |
| C256 | mtm accounts for every word and every link | proved | Proved for one iteration or more (links: from newQueryState, any number). |
| C257 | The sums in a query state of mtm are those of its topics | partial | Proved for tsums_bytop. Refuted for tsums_bydoc, exp_tsums_bydoc and lse_at_k, which training reads or returns but never assigns. |
| C258 | The covariance that mtm estimates is symmetric | partial | Refuted: np.diag of a matrix is a vector, which is added to every row; proved how much the matrix is out. |
| C259 | Queries and copies of mtm leave the model alone | partial | Copies are proved equal. Refuted: query ignores updateVocab=False and overwrites words and covariance; the covariance is not copied. |
| C260 | mtm can be trained on any corpus without empty documents | partial | Refuted: with K topics and fewer than K-1 documents the covariance estimated is singular, for any inverse that gives inverses only. |
| C261 | mtm predicts links | partial | Refuted: a ModelState of mtm has no weights (AttributeError). |
| C262 | self_lda_vb_python trains and queries | partial | Refuted for one iteration or more: seven arguments for eight parameters (TypeError), after the words have been reset and the topics been converted. Zero iterations proved. |
| C263 | Training stm_uv_vecy_bohning reports its measurements | partial | Proved when the frequency divides the number of iterations and the perplexity keeps falling. Refuted otherwise: IndexError; or when it stops early, the last measurement is lost and the likelihoods end in zeros; ZeroDivisionError for the frequency 0, which means not to log. |
| C264 | Training stm_uv_vecy_bohning keeps the words of topics distributions | proved | Proved for two documents or more. |
| C265 | Each step of stm_uv_vecy_bohning solves its least-squares problem | partial | Proved for the map and the places. The directions are proved best when the uncertainty of the places counts once; refuted for the bound, where it counts once for each topic: there are better directions whenever they are not zero. |
| C266 | stm_uv_vecy_bohning does not depend on the order of documents | proved | Proved for measurements that do not depend on the order of documents. The weights expMeans are in the order of the lengths (C267). |
| C267 | The weights that stm_uv_vecy_bohning returns belong to the means | partial | Proved up to the order when the last iteration is measured. Refuted: the rows stay sorted by length when the means are put back in order, and without a measurement they belong to the means of the iteration before. |
| C268 | Each iteration of stm_uv_vecy_bohning improves the topics of each document | proved |  |
| C269 | Queries of stm_uv_vecy_bohning | partial | Proved, except for a single document (IndexError). |
| C270 | What stm_uv_vecy_bohning can be trained on | partial | Proved for sparse features, one iteration or more and measurements that do not raise. Refuted: dense features have no todense (AttributeError); without iterations a name is not bound (UnboundLocalError). |
| C271 | Training sidetopic_uyv fits the topics of the documents | partial | Refuted: the query that would update the topics is commented out (lines 296-303), so training returns them exactly as they were drawn at the start; two corpora with opposite words get the same topics. |
| C272 | Each step of sidetopic_uyv solves its least-squares problem | proved | Proved, for the branch without the fast pseudo-inverse for the latent map. The inverses are arguments that are assumed to invert. |
| C273 | Training sidetopic_uyv never lowers the likelihood of the corpus | partial | Proved for the updates, where there is no prior over words. Refuted for a new model: its rows have a sum of one plus the number of words times epsilon. |
| C274 | A query of sidetopic_uyv never makes a document worse | partial | Proved for documents with words. Refuted for an empty one: a division by its length. |
| C275 | Each update in a query of sidetopic_uyv is the best one | proved |  |
| C276 | What sidetopic_uyv can be trained on | partial | Proved for plans that do not print or plot, sparse features and two documents or more. Refuted: the default plan never gets to its end; one document raises TypeError and dense features AttributeError. |
| C277 | The measurements that sidetopic_uyv takes | partial | Proved: the measurements are in increasing order, at most one more than planned and further and further apart. Refuted: four iterations with two measurements are measured three times, and a single iteration never. |
| C278 | Each step of sidetopic solves its least-squares problem | partial | Proved for the latent map and the projection, and for the map from features when sigma and tau are the same, as in all new models. Refuted when they differ: the means of the documents lack the factor tau^2/sigma^2 (line 188). The inverse is an argument that is assumed to invert. |
| C279 | Training sidetopic never lowers the variational bound | proved | Proved for sigma = tau, as in all new models, documents with words, and as long as no word that occurs gets a probability below the floor of safe_log. The logarithm of the determinant is an argument with the property that it is known for: less the trace of the product with a positive definite matrix it is largest at the inverse. |
| C280 | What sidetopic can be trained on | partial | Proved without a log, if every document has words. A positive interval for the log raises TypeError at once. A document without words turns the arrays into NaN, and from the third iteration on training raises ValueError. |
| C281 | Training sidetopic finds the best offsets of the documents | partial | Refuted: the update is commented out (lines 217-218), so that all offsets stay at zero, and unless the weighted means add up to one particular number another offset is better. |
| C282 | Each update of a document in the training of sidetopic is the best one | proved | Proved for documents with words, probabilities of words below the floor of safe_log being taken for the floor. |
| C283 | The bound that sidetopic prints ranks models as the variational bound does | partial | Proved that what is printed is the bound, a constant and three terms that should not be there: the deviations of the topics are not squared and the number of documents is a factor of the variance of the map (line 385), and the covariance of the map stands where that of the latent map should (line 396). Refuted that the order is that of the bound. For words that occur, zero offsets, as training keeps them, and tangents up to 33. |
| C284 | Training sidetopic_uy learns from the words | partial | Refuted: the updates of the topics of the documents and of the words of the topics are commented out, so that the topics are the draws and the vocabulary is that of the start whatever the words are; only the iteration at which a logged bound ends training depends on them. What is returned as exponentials are the means themselves. The module imports a module that does not exist; the model is of what it would do with the one in model/old. |
| C285 | Training sidetopic_uy fits the map from features to topics | partial | Proved that training gets to its end, for the projection at all variances, and for the two maps at variance one of the features. Refuted at other variances, for want of a factor (lines 155 and 160), and that the variances are the ones asked for: all models have 1/100 (line 524). The checks of the bound that are printed are taken not to raise. |
| C286 | A model of sidetopic_uv_vecy can be made, trained and measured | partial | Refuted: all three read attributes or names, tau and sigma, that do not exist, and raise whatever the inputs are. |
| C287 | The bound that stm_yv reports ranks models as the variational bound does | partial | Proved what is reported: the bound, a constant, and terms that should not be there. The largest mean of a document, times its length, is left out (lines 484-487); the misfit of the map is scaled by the variance of the latent features (line 456); the logarithm of the determinant of the topics counts twice (lines 442 and 454) and the traces lack the variances (lines 445 and 457); the covariance of the latent map is left out of the misfit. Refuted that the order is that of the bound, and that the value is not positive when the words are certain. For tangents as a query leaves them; training keeps twice their value. |
| C288 | The bound that mtm reports counts words and links once | partial | Proved for the words; for the links proved what is counted too much: each pair of links of a document (line 639 sums a matrix with a row and a column for each link), and the normaliser of the scores as often as the words of the document and the links to it, not the links from it (lines 138 and 636). Refuted therefore that a shift of all scores leaves the bound, and that it is not positive. For shares and masses of at least 1E-300. |
| C289 | The bound that sidetopic_uyv reports ranks vocabularies as the variational bound does | partial | Proved what the words contribute: their part of the bound less the entropy of the assignments of the words to topics, which is taken to be zero (line 749). Refuted that the order is that of the bound. For words that occur with the probability of a positive float, and tangents up to 33. |
| C290 | The bound that sidetopic_uy reports ranks covariances as the variational bound does | partial | Proved how the bound depends on the covariance: as the density of normal vectors, but with the determinant in place of its logarithm (line 368). Refuted that the order is that of the density, and that a model of one topic has a bound: line 415 multiplies by a matrix that is None. |
| C291 | The likelihood of the LDA with links is that of the words and the links | partial | Proved: the first part is the log probability of the words, floored; refuted: the second part sums over the words again (line 177), so links do not matter, and a word whose number is not that of a document makes compiled code read outside of memory. |
| C292 | The estimate of a Dirichlet's parameter takes Newton's steps up the log probability of the samples | proved | Proved with digamma and trigamma as arguments that are the derivatives of each other and of the log of the gamma function; a step is Newtons where its denominator is not zero. Whether the sixty steps converge, and stay positive, is not stated. |
| C293 | The likelihood and the error of the old side topic model can be told of a query state | partial | Proved for the likelihood, without rounding; refuted for the error of reconstruction: query states have no lmda, so it always raises AttributeError. |
| C294 | A model of the LDA with links has a query state | partial | Proved what new models are. Refuted that they have query states: the prior ends in zero (line 81), which rd.dirichlet rejects with ValueError. A prior that is a number raises TypeError. |
| C295 | Training in pure Python leaves distributions where the compiled function does | partial | Proved for the topics, and for the words after an even number of iterations. Refuted after an odd number: the two arrays of words are swapped each time (line 263), so the array that was passed holds logarithms; refuted that order does not matter: the weights are divided by their sums after each document (line 298). The inner loop always runs twenty times (line 273 has MaxInnerItrs for MinInnerItrs). |
<!-- end status -->

## 3. Trusted base

* Coq's kernel, including its virtual machine (`vm_compute`, used for witnesses).
* For each theorem, what `Print Assumptions` lists; see section 5. Only axioms of
  the standard library occur, and none are added here.
* The transcription of Python and Cython into Gallina; see the comment on each
  definition for the lines it stands for and what was simplified.
* Exact instead of floating-point arithmetic except in FloatModel (where a double is a real
  number of Flocq's format FLT with 53 bits and least exponent -1074, and there is no largest
  one); unbounded instead of machine integers,
  except where a definition says otherwise (bounds checks of the compiled code, casts
  to 16-bit and 8-bit tokens, rounding into single precision by an arbitrary function).
* The documented behaviour of numpy and scipy functions, as described per definition.

## 4. What is modelled

| code | model | what stands for the rest |
|------|-------|--------------------------|
| `model/common.py`: DataSet, all operations | DatasetModel | rows of numbers; pickling is the identity on contents |
| `util/sparse_elementwise.py` (selection, symmetrising, conversion) | SparseModel, PartModel | CSR as stored entries per row |
| cross-validation indices | SplitModel; FloatModel in doubles | - |
| document completion, folded and random splits, link splits | PartModel; FloatModel (completion in doubles) | random numbers arbitrary |
| `model/evals.py`: MAP, precision, recall, MRR; combining folds | EvalModel; FloatModel (MAP, MRR in doubles) | argsort arbitrary among orders that sort |
| `util/vectrans.py`, `vt_fast.pyx`; flat kernels of `se_fast.pyx` | VecModel | kernels arbitrary functions of the entry |
| `util/overflow_safe.py`, `sigmoid_utils.py`, `array_utils.py`, `misc.py`, `sig_fast.pyx`, scalar part of `se_fast.pyx` | RealModel | reals |
| `lda_cvb0.py`, `lda_cvb0_fast.pyx`, `lda_cvb.py`, `lda_cvb_fast.pyx` | CvbModel | rationals; both precisions as separate code paths; no rounding |
| `newModelFromExisting` and `topicDists` of all modules that `run/__main__.py` can use | CopyModel | an array is an address of a heap; its contents are arbitrary, for topicDists real matrices; training is an argument that may write anything but the shared parameters |
| `ctm_bohning.py`, `stm_yv_bohning.py`, `stm_uv_vecy_bohning.py` (the same text), `mtm2.py` var_bound | BohBoundModel | reals; la.inv and the determinants arguments; the branch of USE_NIW_PRIOR (False) not |
| `mtm3.py` var_bound | LinkBoundModel | reals; la.inv and the determinants arguments; theorems for corpora without links |
| `newModelAtRandom` of `ctm_bohning.py`, `ctm.py`, `mtm2.py`, `mtm3.py` (words), `newQueryState` of `mtm2.py`, `mtm3.py`, folds with saved LDA models | StartModel | reals; draws arguments; training an arbitrary function; INIT_WITH_CTM (False) not |
| settings of `model/sklearn/lda_cvb.py` with what the eight wrapped modules do with seeds, plans, priors, scores, number types and few iterations | EstModel | training, steps of inference, rounding and random streams arguments; sklearn's clone and set_params as documented |
| `WrappedSckitLda`, `WrappedScikitHdp` of `model/sklearn/lda_cvb.py` | WrapModel | reals, casts arguments; the libraries' training and inference arguments; resuming of gensim's model not |
| `_debug_with_bound` and the writes of `var_bound` in `ctm.py`, `ctm_bohning.py`, `stm_yv.py`, `stm_yv_bohning.py`, `stm_yv_bohning_fake_online.py`, `mtm2.py`, `mtm3.py` | DebugModel | heap of arrays; updates of training and values of bounds arguments; texts printed not |
| `model/common.py` `gensim_dictionary`; the dispatch and shapes of `util/sparse_elementwise.py` | OpsModel | stored entries in order; matrices by rows; the smallest positive number an argument |
| `run/__main__.py` `popular_hashtag_indices` | TagModel | sort an argument |
| `run/report_generator.py` (templates, reports, command) | ReportModel | files as texts by path; names of outputs, `int()` arguments; file patterns in StrModel |
| `run/text_to_numpy.py` | NumtextModel | a file is a list of lines of words; float(), the rounding to float32 and the values of int32 out of range are arguments; pickling is not modelled |
| `run/arxiv_to_aan.py`, `run/arxiv_author_ids.py` | ArxivModel | a file is a list of lines; int() and `%d` are arguments; strings by their 8-bit characters |
| `run/reshape_results.py`: the rest of the file | ReshapeModel | a file is a list of lines, each ended by a line feed; float() and str() are arguments |
| `run/__main__.py`: run, calls made by the evaluations; signatures of the 18 model modules | CliModel | options given parsed; objects by name; function bodies not looked at |
| `dmr.py` (updateWeights) | DmrUpdate | reals; scipy's minimiser an arbitrary argument |
| `lro_vb.py` (train, query) | OffModel | reals; scipy's inverse and lda_vb arbitrary arguments; a link stored twice counts once |
| `mom_gibbs.py` (memberships, query) | MomModel | reals; draws independent and uniform on (0,1]; `multinomial` by one draw rather than numpy's binomials |
| `lda_gibbs.py`, `lda_gibbs_fast.pyx`, `mom_gibbs.py` | GibbsModel | draws arbitrary; rationals. For C196-C199 draws are independent and uniform on (0,1]; `rand() / RAND_MAX` takes finitely many values, one of them zero |
| `mom_em.py` | MixModel | reals; digamma arbitrary |
| `model/sklearn/*.py` | SkModel, MixModel | the wrapped modules are arbitrary functions that may raise; objects by identity |
| `run/__main__.py`: evaluation drivers | RunModel | the work of a fold is arbitrary; options are given parsed |
| `run/__main__.py`: sums of the link evaluations, feature rounds, saved LDA models | LroModel | training and prediction arguments; exact rationals |
| `run/*.py`: readers, writers, report generator | StrModel, TableModel, SelModel | text is a list of 8-bit characters; int(), float() and formatting arbitrary where the theorem says so |
| `lda_vb_python.py` | VbModel | reals; digamma, bound and draws arbitrary |
| `lda_vb_fast.pyx`; train, query, accessors of `lda_vb.py`, `lda_svb.py`; token terms of `var_bound` | VbFastModel | reals; digamma, other terms of the bound, convergence and memory contents arbitrary |
| `mtm3.py` train, query, log_likelihood; `mtm2.py` train, query, log_likelihood | MtmModel | reals; inverse arbitrary (assumed correct on symmetric positive definite matrices); early stopping arbitrary; without debugging output and bound |
| `mtm.py` var_bound | MtmBoundModel | reals; la.det and digamma arguments; two or more documents |
| `stm_yv.py` var_bound | YvBoundModel | reals; la.inv, la.det and the two thresholds of the safe logarithms arguments |
| `ctm.py` train, query, var_bound; `stm_yv.py` train, query | BouchModel | reals; la.inv, la.det and oas arguments; the perplexity that stops training arbitrary |
| `stm_yv_bohning_fake_online.py` train, query | FakeModel | reals with a non-finite value; the buffer's size (100000) arbitrary; la.inv, argsort and the perplexity arguments; singular matrices and dense features not |
| `stm_uv_vec_y_bohning.py` vec, unvec, newQueryState, train, query, topicDists | UvModel | named tuples and shapes; the linear algebra arbitrary results or exceptions |
| `rtm.py` _infer_weights, _updateTopicHyperParamsFromMeans (also of `lda_vb_python.py`), priors in newModelAtRandom, newQueryState; `lda_gibbs_fast.pyx` inferPolyaHyper | HyperModel | reals, or extended reals where zero can divide; digamma and normal distribution arguments; uninitialised memory arbitrary; the check for infinite scores left out |
| `var_bound` of `lda_vb_python.py`, `lda_vb.py`, `lda_cvb.py`; `log_likelihood_expected` of `lda_cvb0.py`; `jagged_entropy` | BoundModel | reals; gammaln and digamma arguments; zero probabilities and overflow left out |
| `rtm.py`; `sim_based_rec.py`, `lro_vb.py`, `mtm2.py`, `mtm3.py` (link scores) | LinkModel, RtmModel | reals; NaN as an absent value; storing in a dtype as an arbitrary rounding; weight updates arbitrary |
| `dmr.py`, `dmr_fast.pyx` | DmrModel, DmrReal | rationals for sampling, reals for the objective; optimiser, gammaln and digamma arbitrary |
| `mtm.py` train, query, newQueryState, newModelFromExisting; `ctm_bohning_fast.py` train; `stm_uv_vecy_bohning.py` train (the log); `self_lda_vb_python.py` train, query | EarlyModel | reals; la.inv, which may raise, digamma, the bound and the random draws arguments; what is left in the arrays after an exception only for self_lda |
| `stm_uv_vecy_bohning.py` train, query | VecyModel | reals; argsort, la.inv and the measurement arguments; no debugging; in training at least two documents |
| `old/sidetopic_uyv.py` plan, train, query, initial states | UyvModel | reals; inverses, random draws, ceilings and the measurement arguments; no debugging output, plots or bound |
| `old/sidetopic.py` train, newVbModelState | OldModel | reals; the inverse and the random draws arguments; arrays with NaN as None; the bound that is printed in OldBoundModel |
| `old/sidetopic_uyv.py` varBound | UyvBoundModel | reals; log-determinants arguments; U, V, sigY and omY given |
| `old/sidetopic_uy.py` train, newVbModelState | UyModel | reals; inverse, draws and the logged bound arguments; the missing module taken from model/old |
| `old/sidetopic_uy.py` varBound | UyBoundModel | reals; la.inv and la.det arguments |
| `self_lda_vb_python.py` newModelAtRandom, newQueryState, log_likelihood; `stm_uv_vec_y_bohning.py` estimate_dirichlet_param; `old/sidetopic_uyv.py` log_likelihood, recons_error | LeftModel | reals; digamma and trigamma arguments; words of floating point, no word stored twice in a row; random draws arguments |
| `lda_vb.py` iterate (pure Python) | PureModel | reals; digamma an argument |
| `old/sidetopic_uv_vecy.py` | OldVecyModel | names, attributes and numbers of arguments; values and what is computed arbitrary |
| `ctm_bohning.py` | CtmModel | reals; la.inv an argument; decisions to stop early arbitrary |
| `stm_yv_bohning.py` | CtmModel (queries), StmModel (training) | reals; la.inv, the least-squares solver and argsort arguments |

Not modelled: logging and debugging output, plotting, the parsing of the command line by argparse, the
variational bounds (`var_bound`) except where listed above or where a property is about calling them,
numpy and scipy internals, memory layout, the overflow of floating-point numbers,
`_old_train` of `lda_vb_python.py` (dead code),
`rtm_fast.pyx` (nothing imports it, and Cython rejects it: an argument type without a name in `infer_topics_f64`, and `erfc` not imported), and the rest of `model/old`: the numerical parts of `sidetopic_uv_vecy.py`. `ctm_grad_arb.py` has the text of `ctm_bohning.py`, whose theorems apply to it.

## 5. Assumptions of each theorem

As listed by `Print Assumptions`: `-` closed under the global context; otherwise
axioms of Coq's standard library,
S `ClassicalDedekindReals.sig_forall_dec`, N `ClassicalDedekindReals.sig_not_dec`,
F `FunctionalExtensionality.functional_extensionality_dep`, C `Classical_Prop.classic`.
All four come with the standard library's real numbers. Flocq, mathcomp and the other installed
libraries contribute no axiom.

<!-- assumptions -->
| id | theorem (file): assumptions |
|----|------------------------------|
| C01 | `C01_fold_partitions_corpus` (SplitProps): -; `C01_fold_rejects_bad_ids` (SplitProps): - |
| C02 | `C02_every_document_queried` (SplitProps): -; `C02_exactly_once_when_dividing` (SplitProps): -; `C02_at_most_twice` (SplitProps): - |
| C03 | `C03_query_sets_disjoint_refuted` (SplitProps): -; `C03_query_sets_disjoint_iff_dividing` (SplitProps): - |
| C04 | `C04_split_keeps_records_together` (DatasetProps): -; `C04_split_succeeds` (DatasetProps): - |
| C05 | `C05_rows_stay_coherent` (DatasetProps): -; `C05_links_stay_coherent` (DatasetProps): - |
| C06 | `C06_prune_keeps_largest_self_supporting_set` (DatasetProps): -; `C06_single_short_document_refuted` (DatasetProps): - |
| C07 | `C07_order_names_original_rows_refuted` (DatasetProps): -; `C07_order_after_loading_refuted` (DatasetProps): -; `C07_order_names_original_rows_partial` (DatasetProps): - |
| C08 | `C08_limit_truncates_refuted` (DatasetProps): -; `C08_limit_only_shortens_order` (DatasetProps): - |
| C09 | `C09_grouping_recovers_categories` (DatasetProps): -; `C09_last_line_may_lack_newline` (DatasetProps): - |
| C10 | `C10_undirected_is_sum_of_directions` (DatasetProps): -; `C10_symmetry_survives_selection` (DatasetProps): -; `C10_reorder_restricts_square_links` (DatasetProps): - |
| C11 | `C11_binary_marks_nonzero_links_refuted` (DatasetProps): -; `C11_binary_is_zero_one_refuted` (DatasetProps): -; `C11_binary_marks_nonzero_links_canonical` (DatasetProps): -; `C11_binary_after_undirected` (DatasetProps): - |
| C12 | `C12_intercept_present_refuted` (DatasetProps): -; `C12_intercept_present_bounded` (DatasetProps): -; `C12_second_call_changes_nothing` (DatasetProps): - |
| C13 | `C13_keeps_exactly_frequent_words` (DatasetProps): - |
| C14 | `C14_completion_conserves_tokens` (PartProps): -; `C14_completion_returns` (PartProps): - |
| C15 | `C15_counts_are_nonnegative_refuted` (PartProps): -; `C15_counts_nonnegative_iff` (PartProps): -; `C15_counts_nonnegative_small_jitter` (PartProps): - |
| C16 | `C16_threshold_removing_documents_raises` (PartProps): -; `C16_filter_returns_both_halves_refuted` (PartProps): -; `C16_threshold_met_by_all_returns` (PartProps): - |
| C17 | `C17_long_rows_are_divided` (PartProps): -; `C17_short_rows_are_copied` (PartProps): -; `C17_halves_add_up_refuted` (PartProps): - |
| C18 | `C18_fold_of_each_link` (PartProps): -; `C18_each_link_queried_once_divisible` (PartProps): -; `C18_leftover_links_never_queried` (PartProps): -; `C18_each_link_queried_once_refuted` (PartProps): - |
| C19 | `C19_link_prediction_split_always_raises` (PartProps): -; `C19_link_prediction_split_returns_refuted` (PartProps): - |
| C20 | `C20_returned_documents` (PartProps): -; `C20_single_feature_separates` (PartProps): -; `C20_split_succeeds` (PartProps): -; `C20_split_on_feature_separates_refuted` (PartProps): -; `C20_split_on_feature_disjoint_refuted` (PartProps): -; `C20_split_without_links_refuted` (PartProps): - |
| C21 | `C21_column_dropping_agrees` (PartProps): -; `C21_column_dropping_agrees_refuted` (PartProps): - |
| C22 | `C22_soft_split_partitions` (PartProps): -; `C22_each_entry_has_its_own_draw` (PartProps): - |
| C23 | `C23_map_between_zero_and_one` (EvalProps): -; `C23_map_returns_iff` (EvalProps): -; `C23_map_of_perfect_ranking` (EvalProps): -; `C23_absent_links_score_zero_refuted` (EvalProps): - |
| C24 | `C24_precision_at_most_one_refuted` (EvalProps): -; `C24_precision_bound` (EvalProps): -; `C24_precision_at_most_one_few_links` (EvalProps): - |
| C25 | `C25_recall_between_zero_and_one` (EvalProps): -; `C25_recall_grows_with_m` (EvalProps): -; `C25_recall_value` (EvalProps): - |
| C26 | `C26_default_groups_fail_for_any_link` (EvalProps): -; `C26_default_groups_work_refuted` (EvalProps): -; `C26_argument_untouched_refuted` (EvalProps): -; `C26_argument_characterised` (EvalProps): -; `C26_returns_iff_groups_cover` (EvalProps): - |
| C27 | `C27_mrr_is_mean_reciprocal_rank` (EvalProps): -; `C27_mrr_fails_iff_nothing_found` (EvalProps): -; `C27_repeated_links_all_counted_refuted` (EvalProps): - |
| C28 | `C28_counts_add_up` (EvalProps): -; `C28_recall_totals_add_up` (EvalProps): - |
| C29 | `C29_combined_is_weighted_mean` (EvalProps): -; `C29_order_of_folds_irrelevant` (EvalProps): -; `C29_fails_iff_first_two_empty` (EvalProps): -; `C29_success_independent_of_order_refuted` (EvalProps): -; `C29_parts_combine_to_whole` (EvalProps): - |
| C30 | `C30_vec_transpose_moves_entries` (VecProps): -; `C30_vec_transpose_twice` (VecProps): -; `C30_vec_transpose_numbers` (VecProps): -; `C30_left_over_rows_raise` (VecProps): - |
| C31 | `C31_matrix_is_a_permutation` (VecProps): -; `C31_maps_vec_to_vec_of_transpose` (VecProps): -; `C31_inverse_is_that_of_the_swapped_shape` (VecProps): - |
| C32 | `C32_csr_indices_are_the_coordinates` (VecProps): -; `C32_row_of_each_position` (VecProps): - |
| C33 | `C33_range_from_row_zero` (VecProps): -; `C33_full_kernels` (VecProps): -; `C33_wrapper_from_row_zero` (VecProps): -; `C33_wrapper_length` (VecProps): -; `C33_what_a_later_start_does_partial` (VecProps): -; `C33_range_refuted` (VecProps): - |
| C34 | `C34_double_error` (RealProps): SNFC; `C34_single_error` (RealProps): SNFC; `C34_sides` (RealProps): SNFC; `C34_numpy_error` (RealProps): SNFC; `C34_positive` (RealProps): SNFC |
| C35 | `C35_rows_are_distributions` (RealProps): SNFC; `C35_shift_invariant` (RealProps): SNF; `C35_no_overflow` (RealProps): SF; `C35_log_sum_exp` (RealProps): SNFC; `C35_empty_row_raises` (RealProps): SNF; `C35_columns_are_distributions` (RealProps): SNF |
| C36 | `C36_exactly_when` (RealProps): SNFC; `C36_needs_two_measurements` (RealProps): SNFC; `C36_flat_in_magnitude_refuted` (RealProps): SNFC; `C36_flat_in_magnitude_partial` (RealProps): SNFC |
| C37 | `C37_segments_add_up` (CvbProps): -; `C37_large_frequency_runs_longer` (CvbProps): -; `C37_requested_iterations_refuted` (CvbProps): -; `C37_vb_single` (CvbProps): -; `C37_vb_double_refuted` (CvbProps): -; `C37_vb_double_never_runs` (CvbProps): -; `C37_svb_single_iff` (CvbProps): -; `C37_svb_double_iff` (CvbProps): -; `C37_svb_default_plan_refuted` (CvbProps): - |
| C38 | `C38_counts_match` (CvbProps): -; `C38_counts_match_at_every_point` (CvbProps): -; `C38_initial_counts_match` (CvbProps): -; `C38_positive_priors_never_abort` (CvbProps): - |
| C39 | `C39_query_leaves_model` (CvbProps): -; `C39_training_adds_counts` (CvbProps): -; `C39_empty_document_rejected` (CvbProps): -; `C39_rejected_iff` (CvbProps): - |
| C40 | `C40_word_lists_keep_bags` (CvbProps): -; `C40_flat_list_keeps_bags` (CvbProps): -; `C40_large_vocabulary_rejected` (CvbProps): - |
| C41 | `C41_initial_counts_match` (GibbsProps): -; `C41_counts_match_at_every_point` (GibbsProps): -; `C41_counts_match` (GibbsProps): -; `C41_query_counts_match` (GibbsProps): -; `C41_training_counts_match` (GibbsProps): - |
| C42 | `C42_samples_recorded` (GibbsProps): -; `C42_burn_in_records_nothing` (GibbsProps): -; `C42_training_samples` (GibbsProps): - |
| C43 | `C43_query_keeps_sums` (GibbsProps): -; `C43_word_dists_scaled` (GibbsProps): -; `C43_word_dists_unchanged_same_samples` (GibbsProps): -; `C43_word_dists_unchanged_refuted` (GibbsProps): - |
| C44 | `C44_logging_fails` (GibbsProps): -; `C44_default_plan_never_runs` (GibbsProps): -; `C44_default_plan_runnable_refuted` (GibbsProps): -; `C44_quiet_plan_runs_iff` (GibbsProps): -; `C44_quiet_plan_error` (GibbsProps): -; `C44_quiet_sample_counts` (GibbsProps): - |
| C45 | `C45_nothing_works_before_fit` (SkProps): -; `C45_model_never_lost` (SkProps): -; `C45_resume_continues` (SkProps): -; `C45_resume_elsewhere` (SkProps): -; `C45_fit_transform_is_two_calls` (SkProps): -; `C45_transform_needs_successful_fit_refuted` (SkProps): - |
| C46 | `C46_admixture_is_log_probability` (MixProps): SNFC; `C46_admixture_floors_impossible_words` (MixProps): SNFC; `C46_admixture_not_positive` (MixProps): SNFC; `C46_mixture_score_value` (MixProps): SNFC; `C46_mixture_overestimates` (MixProps): SNFC; `C46_mixture_is_log_probability_refuted` (MixProps): SNFC |
| C47 | `C47_totals_are_of_finished_folds` (RunProps): -; `C47_fails_iff_no_fold_finishes` (RunProps): - |
| C48 | `C48_every_fold_is_evaluated` (RunProps): -; `C48_truncation_refuted` (RunProps): - |
| C49 | `C49_order` (VbProps): SNFC; `C49_visits_differ_by_at_most_one` (VbProps): SNFC; `C49_batch_visits_exactly_once` (VbProps): SNFC; `C49_minibatch_visits_at_least_once` (VbProps): SNFC; `C49_exactly_once_refuted` (VbProps): SNFC |
| C50 | `C50_query_learns_the_query` (VbProps): SNFC; `C50_update_flag_ignored` (VbProps): SNFC; `C50_model_unchanged_refuted` (VbProps): SNFC |
| C51 | `C51_params_to_means_and_back` (VbProps): SF; `C51_means_to_params_and_back` (VbProps): SF; `C51_means_are_distributions` (VbProps): SF; `C51_params_of_distributions` (VbProps): SF |
| C52 | `C52_each_link_once` (LinkProps): -; `C52_only_links` (LinkProps): -; `C52_unsorted_rows_refuted` (LinkProps): - |
| C53 | `C53_lro` (LinkProps): SF; `C53_similar_topics` (LinkProps): SNF; `C53_mtm` (LinkProps): SNF; `C53_rtm` (LinkProps): SF; `C53_tfidf` (LinkProps): SNF; `C53_tfidf_zero_weights_refuted` (LinkProps): SNFC; `C53_single_precision_refuted` (LinkProps): SNFC |
| C54 | `C54_side_topic_files` (StrProps): -; `C54_side_topic_files_of_others` (StrProps): -; `C54_correlated_files_never_found` (StrProps): -; `C54_saved_files_are_found_refuted` (StrProps): -; `C54_name_from_model_found` (StrProps): - |
| C55 | `C55_accepted_spellings` (StrProps): -; `C55_others_rejected` (StrProps): -; `C55_one_or_two_types` (StrProps): -; `C55_more_types_rejected_refuted` (StrProps): - |
| C56 | `C56_reads_back_with_doubled_quotes` (StrProps): -; `C56_round_trip_iff_no_quote` (StrProps): -; `C56_round_trip_refuted` (StrProps): - |
| C57 | `C57_balanced_text` (StrProps): -; `C57_any_text` (StrProps): -; `C57_unbalanced_text` (StrProps): - |
| C58 | `C58_allotments` (SelProps): -; `C58_target_met_refuted` (SelProps): -; `C58_takes_everything_refuted` (SelProps): - |
| C59 | `C59_weighted_means` (TableProps): -; `C59_no_documents` (TableProps): -; `C59_between` (TableProps): - |
| C60 | `C60_fold_conventions_agree_refuted` (SplitProps): -; `C60_script_query_is_previous_fold` (SplitProps): - |
| C61 | `C61_training_in_callers_order` (StmProps): SNF; `C61_weights_stay_sorted` (StmProps): SNF; `C61_no_iterations` (StmProps): -; `C61_training_succeeds` (StmProps): SNF; `C61_weights_in_callers_order_refuted` (StmProps): SNFC; `C61_order_of_documents_refuted` (StmProps): SNFC |
| C62 | `C62_training_in_bounds` (DmrProps): -; `C62_training_completes_iff` (DmrProps): -; `C62_default_training_iff` (DmrProps): -; `C62_query_in_bounds` (DmrProps): -; `C62_query_completes_iff` (DmrProps): -; `C62_default_query_overflows` (DmrProps): -; `C62_training_in_bounds_refuted` (DmrProps): -; `C62_query_in_bounds_refuted` (DmrProps): - |
| C63 | `C63_steps_keep_distributions` (VbProps): SF; `C63_extreme_steps` (VbProps): SF; `C63_kappa_steps` (VbProps): SNFC; `C63_default_steps` (VbProps): SNFC; `C63_default_first_step_refuted` (VbProps): SNFC; `C63_variance_first_step` (VbProps): SNFC; `C63_variance_step_refuted` (VbProps): SNFC; `C63_amari_step_refuted` (VbProps): SNFC |
| C64 | `C64_tokens_conserved` (CtmProps): SF; `C64_words_conserved` (CtmProps): SF; `C64_vocabulary` (CtmProps): SNF; `C64_stm_vocabulary` (StmProps): SNF |
| C65 | `C65_rectangular_link_columns_kept_refuted` (DatasetProps): -; `C65_rectangular_link_columns_kept_without_threshold` (DatasetProps): - |
| C66 | `C66_prune_works_without_categories_refuted` (DatasetProps): -; `C66_failed_prune_leaves_dataset_alone_refuted` (DatasetProps): - |
| C67 | `C67_auto_convert_gives_sparse_storage_refuted` (DatasetProps): -; `C67_sparse_storage_characterised` (DatasetProps): - |
| C68 | `C68_mirror_restores_off_diagonal` (PartProps): -; `C68_mirror_is_symmetric` (PartProps): -; `C68_mirror_doubles_diagonal` (PartProps): -; `C68_mirror_restores_matrix_refuted` (PartProps): - |
| C69 | `C69_dense_writes_every_cell` (VecProps): -; `C69_dense_agrees_with_sparse` (VecProps): -; `C69_ragged_writes_outside` (VecProps): -; `C69_dense_stays_inside_refuted` (VecProps): - |
| C70 | `C70_out_receives_result_partial` (VecProps): -; `C70_out_untouched_for_full_range` (VecProps): -; `C70_out_receives_result_refuted` (VecProps): - |
| C71 | `C71_fallback_raises_with_more_documents` (VecProps): -; `C71_entropy_same_for_every_dtype_refuted` (VecProps): - |
| C72 | `C72_log1pexp_monotone_refuted` (RealProps): SNFC; `C72_log1pexp_monotone_partial` (RealProps): SNFC |
| C73 | `C73_scale_is_used_refuted` (RealProps): SNF; `C73_scale_is_used_partial` (RealProps): SNF |
| C74 | `C74_safe_log_in_place_agrees` (RealProps): SNFC; `C74_safe_log_values` (RealProps): SNFC; `C74_x_log_x` (RealProps): SNFC |
| C75 | `C75_weighted_sum_error` (RealProps): SNFC; `C75_weighted_sum_error_single` (RealProps): SNFC; `C75_missing_weight` (RealProps): S |
| C76 | `C76_self_soft_dot_value` (RealProps): SNF; `C76_between_extremes` (RealProps): SNF; `C76_shift_is_maximum` (RealProps): SF |
| C77 | `C77_safe_det_is_the_maximum` (RealProps): SF |
| C78 | `C78_second_run_counts_corpus_twice` (CvbProps): -; `C78_resumed_counts_match_refuted` (CvbProps): - |
| C79 | `C79_means_match` (CvbProps): -; `C79_variances_match_double` (CvbProps): -; `C79_initial_variances` (CvbProps): -; `C79_variances_match_single_refuted` (CvbProps): - |
| C80 | `C80_cvb0_totals_stay_consistent` (CvbProps): -; `C80_cvb_first_training_consistent` (CvbProps): -; `C80_cvb_totals_become_variances` (CvbProps): -; `C80_cvb_further_training_contents` (CvbProps): -; `C80_cvb_totals_stay_consistent_refuted` (CvbProps): - |
| C81 | `C81_measuring_keeps_counts` (CvbProps): - |
| C82 | `C82_logged_numbers` (CvbProps): -; `C82_logged_number_is_last_iteration_refuted` (CvbProps): - |
| C83 | `C83_training_runs` (GibbsProps): -; `C83_query_runs` (GibbsProps): -; `C83_every_draw_selects_refuted` (GibbsProps): - |
| C84 | `C84_drawn_by_conditional` (GibbsProps): - |
| C85 | `C85_every_token_once` (GibbsProps): - |
| C86 | `C86_training_distributions` (GibbsProps): -; `C86_query_distributions` (GibbsProps): -; `C86_default_plan_has_samples_iff` (GibbsProps): -; `C86_short_runs_refuted` (GibbsProps): - |
| C87 | `C87_memberships` (GibbsProps): - |
| C88 | `C88_returns_last_state` (GibbsProps): -; `C88_average_returned_refuted` (GibbsProps): - |
| C89 | `C89_matrices_never_work` (SkProps): -; `C89_matrices_error` (SkProps): -; `C89_datasets_work` (SkProps): -; `C89_matrices_never_resume` (SkProps): -; `C89_fit_transform_on_matrices_refuted` (SkProps): - |
| C90 | `C90_expected_score_needs_query_state` (SkProps): -; `C90_expected_score_error` (SkProps): -; `C90_score_without_assignments_refuted` (SkProps): - |
| C91 | `C91_model_kept` (SkProps): -; `C91_score_given_assignments_keeps_all` (SkProps): -; `C91_score_forgets` (SkProps): -; `C91_scoring_keeps_resumability_refuted` (SkProps): - |
| C92 | `C92_find_query_state_restores` (SkProps): -; `C92_find_query_state_result` (SkProps): - |
| C93 | `C93_training` (MixProps): SNF; `C93_empty_documents_refused` (MixProps): SNF |
| C94 | `C94_query_result` (MixProps): SNF; `C94_query_ignores_start` (MixProps): SNF; `C94_zero_iterations_fail` (MixProps): -; `C94_any_iteration_count_refuted` (MixProps): SNF |
| C95 | `C95_expected_likelihood_of_prior` (MixProps): SNFC; `C95_expected_likelihood_of_posterior_fails` (MixProps): -; `C95_expected_likelihood_refuted` (MixProps): SNFC |
| C96 | `C96_measuring_fails` (MixProps): SNF; `C96_default_training_succeeds_refuted` (MixProps): SNF |
| C97 | `C97_point_likelihood` (MixProps): SNFC |
| C98 | `C98_perplexity_is_inverse_mean_probability` (MixProps): SNFC; `C98_better_likelihood_lower_perplexity` (MixProps): SNFC; `C98_at_least_one` (MixProps): SNFC |
| C99 | `C99_single_fold_reports_training_data_and_saves` (RunProps): -; `C99_single_fold_not_saved_refuted` (RunProps): - |
| C100 | `C100_insample_runs_requested_folds` (RunProps): -; `C100_tags_run_target_folds` (RunProps): -; `C100_tags_with_default_option_raise` (RunProps): -; `C100_default_runs_all_folds_refuted` (RunProps): - |
| C101 | `C101_no_hashtag_deleted` (RunProps): -; `C101_hashtags_deleted_refuted` (RunProps): -; `C101_proportion_one_deletes_hashtags` (RunProps): - |
| C102 | `C102_binary_counts_give_fractions` (RunProps): -; `C102_precision_is_a_fraction_refuted` (RunProps): - |
| C103 | `C103_map_ignores_model` (RunProps): -; `C103_mrr_ignores_model` (RunProps): -; `C103_precision_tables_ignore_model` (RunProps): -; `C103_better_model_scores_higher_refuted` (RunProps): - |
| C104 | `C104_popular_words` (RunProps): - |
| C105 | `C105_names_differ` (StrProps): -; `C105_different_models_differ_refuted` (StrProps): - |
| C106 | `C106_documented_models_all_rejected` (StrProps): -; `C106_documented_models_accepted_refuted` (StrProps): -; `C106_accepted_models` (StrProps): - |
| C107 | `C107_field_ends_at_first_brace` (StrProps): -; `C107_text_without_braces_kept` (StrProps): - |
| C108 | `C108_mask_read_back` (StrProps): -; `C108_missing_index_rejected` (StrProps): - |
| C109 | `C109_score_of_given_topics` (SkScore): -; `C109_given_topics_rejected` (SkScore): -; `C109_score_of_given_state` (SkScore): -; `C109_both_given_rejected` (SkScore): -; `C109_score_infers_topics` (SkScore): -; `C109_document_completion` (SkScore): -; `C109_failures_passed_on` (SkScore): - |
| C110 | `C110_fit_iterations` (SkScore): -; `C110_transform_iterations` (SkScore): - |
| C111 | `C111_enough_and_not_more` (SelProps): -; `C111_target_reached` (SelProps): - |
| C112 | `C112_strip` (SelProps): -; `C112_user_names` (SelProps): -; `C112_counts_are_totals` (SelProps): -; `C112_bad_lines` (SelProps): - |
| C113 | `C113_read_back` (TableProps): -; `C113_no_large_documents` (TableProps): -; `C113_every_table_is_read_refuted` (TableProps): - |
| C114 | `C114_batch_training_conserves_tokens` (VbProps): SNFC; `C114_minibatch_training_conserves_document_tokens` (VbProps): SNFC; `C114_reported_distributions` (VbProps): SF; `C114_amari_parameters` (VbProps): SNFC; `C114_amari_refuted` (VbProps): SNFC |
| C115 | `C115_parameters_stay_positive` (VbProps): SNFC; `C115_new_models_stay_positive` (VbProps): SNFC; `C115_trained_models_refuted` (VbProps): SNFC |
| C116 | `C116_weight_of_a_batch` (VbProps): SNFC; `C116_corpus_weight_refuted` (VbProps): SNFC |
| C117 | `C117_stochastic_rates_need_a_batch_size` (VbProps): SNFC; `C117_batch_size_selects_kappa` (VbProps): -; `C117_requested_rate_refuted` (VbProps): SF |
| C118 | `C118_seeded_topics_are_distributions` (VbProps): SF; `C118_seeding_ends` (VbProps): SF; `C118_empty_documents_never_end` (VbProps): SF; `C118_seeding_ends_refuted` (VbProps): SF |
| C119 | `C119_new_query_state` (VbProps): SF; `C119_single_document_fails` (VbProps): -; `C119_every_corpus_refuted` (VbProps): SF |
| C120 | `C120_cosine` (LinkProps): SNF; `C120_same_corpus` (LinkProps): SNFC; `C120_same_proportions` (LinkProps): SNFC; `C120_held_out_queries_refuted` (LinkProps): SNFC; `C120_integer_counts_refuted` (LinkProps): SNFC |
| C121 | `C121_order` (LinkProps): SNF; `C121_range` (LinkProps): SNF |
| C122 | `C122_scores_are_a_distribution` (LinkProps): SNF |
| C123 | `C123_query_raises` (RtmProps): SNF; `C123_query_without_iterations` (RtmProps): SNF; `C123_query_returns_topics_refuted` (RtmProps): SNF |
| C124 | `C124_training_conserves_tokens` (RtmProps): SNF; `C124_intercept_column` (RtmProps): SNF; `C124_reported_topics` (RtmProps): SF; `C124_new_state` (RtmProps): S |
| C125 | `C125_batch_training_is_mean_field` (VbField): SNFC; `C125_links_pull_by_their_gradient` (RtmField): SNFC; `C125_relational_update` (RtmField): SNF; `C125_unlinked_documents_as_in_lda` (RtmField): SNF |
| C126 | `C126_training_counts_match` (DmrProps): -; `C126_sample_count` (DmrProps): -; `C126_training_distributions` (DmrProps): -; `C126_query_distributions` (DmrProps): -; `C126_document_without_features_refuted` (DmrProps): -; `C126_negative_priors_refuted` (DmrProps): - |
| C127 | `C127_only_last_round_stored` (DmrProps): -; `C127_all_stored_iff_one_round` (DmrProps): -; `C127_counted_samples_stored_refuted` (DmrProps): - |
| C128 | `C128_sampler_prior_is_smaller` (DmrReal): SNFC; `C128_sampler_uses_fitted_prior_refuted` (DmrReal): SNFC |
| C129 | `C129_query_scales_word_distributions` (DmrProps): -; `C129_query_keeps_word_distributions_refuted` (DmrProps): - |
| C130 | `C130_gradient_is_derivative` (DmrReal): SNFC; `C130_objective_is_posterior` (DmrReal): SNFC |
| C131 | `C131_iteration_gain` (CtmProps): SNFC; `C131_query_improves` (CtmProps): SNFC; `C131_stm_query_improves` (CtmProps): SNFC; `C131_posterior_gradient` (CtmProps): SNFC; `C131_fixed_points_are_stationary` (CtmProps): SNFC |
| C132 | `C132_training_improves` (CtmProps): SNFC; `C132_training_succeeds` (CtmProps): SNF |
| C133 | `C133_covariance_is_identity` (CtmProps): SNF; `C133_learns_covariance_refuted` (CtmProps): SNF |
| C134 | `C134_query_returns_means` (CtmProps): SNF; `C134_fast_query_returns_softmax` (CtmProps): SNF; `C134_query_keeps_variances` (CtmProps): SNF; `C134_fast_query_refuted` (CtmProps): SNFC |
| C135 | `C135_single_document_refuted` (CtmProps): SNF; `C135_other_corpora` (CtmProps): SNF |
| C136 | `C136_means_improve` (StmProps): SNFC |
| C137 | `C137_later_updates` (StmProps): SNF; `C137_converged` (StmProps): SNF; `C137_counts_each_occurrence_refuted` (StmProps): SNFC |
| C138 | `C138_final_map_is_over_all_documents` (LroProps): -; `C138_final_tables_are_over_all_documents` (LroProps): -; `C138_final_mrr_weighs_by_documents` (LroProps): -; `C138_final_mrr_is_over_all_links_refuted` (LroProps): -; `C138_groups_without_documents_raise` (LroProps): -; `C138_evaluation_finishes_refuted` (LroProps): - |
| C139 | `C139_rounds` (LroProps): -; `C139_queried_documents_are_unseen` (LroProps): -; `C139_one_round_per_feature` (LroProps): -; `C139_empty_mask_raises` (LroProps): - |
| C140 | `C140_single_fold_topics` (LroProps): -; `C140_other_orders_refused` (LroProps): -; `C140_fold_model_has_too_few_topics` (LroProps): -; `C140_fold_model_topics_refuted` (LroProps): -; `C140_lda_recommender_needs_model` (LroProps): -; `C140_model_is_optional_refuted` (LroProps): - |
| C141 | `C141_folds_are_exact` (FloatProps): SNFC; `C141_fold_partitions_corpus` (FloatProps): SNFC |
| C142 | `C142_map_in_doubles` (FloatProps): SNFC; `C142_map_fails_alike` (FloatProps): SNFC; `C142_map_of_perfect_ranking` (FloatProps): SNFC; `C142_mrr_in_doubles` (FloatProps): SNFC; `C142_mrr_rounds` (FloatProps): SNFC |
| C143 | `C143_completion_in_doubles` (FloatProps): SNFC; `C143_completion_conserves_tokens` (FloatProps): SNFC; `C143_completion_returns` (FloatProps): SNFC |
| C144 | `C144_three_passes_one_step` (VbFastProps): SNF; `C144_fixed_point_iff` (VbFastProps): SNFC; `C144_inference_reaches_fixed_point_refuted` (VbFastProps): SNFC |
| C145 | `C145_topics_of_a_document` (VbFastProps): SNF; `C145_topics_in_training` (VbFastProps): SNF; `C145_independent_of_number_of_documents_refuted` (VbFastProps): SNFC |
| C146 | `C146_total_has_number_of_documents` (VbFastProps): SNF; `C146_token_distributions` (VbFastProps): SNF; `C146_total_counts_refuted` (VbFastProps): SNF; `C146_weights_cannot_overflow` (VbFastProps): SNFC |
| C147 | `C147_word_counts` (VbFastProps): SNF; `C147_at_least_prior` (VbFastProps): SNF; `C147_topic_counts` (VbFastProps): SNF |
| C148 | `C148_looking_leaves_queries_refuted` (VbFastProps): SNFC; `C148_look_normalised` (VbFastProps): SF; `C148_look_gives_distributions` (VbFastProps): SF |
| C149 | `C149_training_alternates` (VbFastProps): SNF; `C149_single_segment` (VbFastProps): SNF; `C149_logging_no_influence_refuted` (VbFastProps): SNFC |
| C150 | `C150_double_precision_training` (VbFastProps): SNF; `C150_trained_model_cannot_be_queried` (VbFastProps): SNF; `C150_train_then_query_refuted` (VbFastProps): SNF |
| C151 | `C151_batches_never_learn` (VbFastProps): SNF; `C151_training_returns_initial_vocabulary` (VbFastProps): SNF; `C151_no_batches_is_plain` (VbFastProps): SNF; `C151_stochastic_training_learns_refuted` (VbFastProps): SNF |
| C152 | `C152_bound_determined_equal_lengths` (VbFastProps): SNFC; `C152_bound_determined_refuted` (VbFastProps): SNFC |
| C153 | `C153_mtm_training_never_finishes` (MtmProps): SNF; `C153_vocabulary_left_behind` (MtmProps): SNFC; `C153_trains_refuted` (MtmProps): SNF |
| C154 | `C154_topics_improve` (MtmProps): SNFC; `C154_training_topics` (MtmProps): SNFC |
| C155 | `C155_iteration_sound` (MtmProps): SNFC; `C155_training_sound` (MtmProps): SNFC |
| C156 | `C156_out_links_shared` (MtmProps): SNF; `C156_in_links_counted` (MtmProps): SNF; `C156_symmetric_links` (MtmProps): SNF; `C156_in_links_refuted` (MtmProps): SNFC |
| C157 | `C157_out_topics_improve` (MtmProps): SNFC |
| C158 | `C158_without_links` (MtmProps): SNF; `C158_in_topics_refuted` (MtmProps): SNFC |
| C159 | `C159_setting_ignored` (MtmProps): SNFC; `C159_always_ten` (MtmProps): SNFC; `C159_kept_refuted` (MtmProps): SNFC |
| C160 | `C160_model_unchanged` (MtmProps): SNFC; `C160_query_improves` (MtmProps): SNFC; `C160_empty_document` (MtmProps): SNFC; `C160_empty_variance_too_small` (MtmProps): SNFC; `C160_query_succeeds` (MtmProps): SNFC; `C160_links_only_counted` (MtmProps): SNFC; `C160_links_refuted` (MtmProps): SNFC; `C160_prior_variance_refuted` (MtmProps): SNFC |
| C161 | `C161_never_worse` (MtmProps): SNFC; `C161_fast_query_returns_softmax` (MtmProps): SNF; `C161_single_document` (MtmProps): -; `C161_ctm_resumes` (MtmProps): SNF; `C161_resumes_refuted` (MtmProps): SNFC |
| C162 | `C162_reads_inside` (MtmProps): SNFC; `C162_outside_refuted` (MtmProps): SNFC; `C162_words` (MtmProps): SNFC; `C162_links_refuted` (MtmProps): SNFC |
| C163 | `C163_ctm_training` (BouchProps): SNFC; `C163_side_training` (BouchProps): SNFC; `C163_ctm_query` (BouchProps): SNFC; `C163_side_query` (BouchProps): SNFC |
| C164 | `C164_ctm_topics` (BouchProps): SNF; `C164_ctm_topics_improve` (BouchProps): SNFC; `C164_side_topics` (BouchProps): SNF; `C164_side_topics_improve` (BouchProps): SNFC |
| C165 | `C165_bound` (BouchProps): SNFC; `C165_ctm_training` (BouchProps): SNFC; `C165_side_training` (BouchProps): SNFC; `C165_side_query` (BouchProps): SNFC |
| C166 | `C166_best_tangents` (BouchProps): SNFC; `C166_query_improves_refuted` (BouchProps): SNFC |
| C167 | `C167_two_topics` (BouchProps): SNFC; `C167_more_topics` (BouchProps): SNFC; `C167_best_offset_refuted` (BouchProps): SNFC |
| C168 | `C168_first_topic` (BouchProps): SNF; `C168_prior_of_first_topic` (BouchProps): SNF; `C168_relabelling_refuted` (BouchProps): SNFC |
| C169 | `C169_ctm_multiple` (BouchProps): SNF; `C169_side_multiple` (BouchProps): SNF; `C169_ctm_not_multiple` (BouchProps): SNF; `C169_side_not_multiple` (BouchProps): SNF; `C169_never_logging` (BouchProps): SNF; `C169_any_iterations_refuted` (BouchProps): SNF |
| C170 | `C170_side_query_refuted` (BouchProps): SNFC; `C170_ctm_query_refuted` (BouchProps): SNFC |
| C171 | `C171_bound_is` (BouchProps): SNFC; `C171_not_positive_refuted` (BouchProps): SNFC |
| C172 | `C172_side_query` (BouchProps): SNF; `C172_ctm_query` (BouchProps): SNF |
| C173 | `C173_features` (BouchProps): SNF; `C173_topic_factor` (BouchProps): SNF; `C173_feature_factor` (BouchProps): SNF |
| C174 | `C174_debug_training` (BouchProps): SNF; `C174_debug_query` (BouchProps): SNF; `C174_single_document_training` (BouchProps): SNF; `C174_single_document_query` (BouchProps): SNF; `C174_works_refuted` (BouchProps): SNFC |
| C175 | `C175_one_length` (FakeProps): SNF; `C175_longest_document_lost` (FakeProps): SNF; `C175_more_iterations_fail` (FakeProps): SNF; `C175_finite_topics_refuted` (FakeProps): SNF |
| C176 | `C176_within_the_buffer` (FakeProps): SNF; `C176_larger_corpora_read_outside` (FakeProps): SNF; `C176_reads_outside_refuted` (FakeProps): SNF |
| C177 | `C177_topics_improve` (FakeProps): SNFC |
| C178 | `C178_later_vocabularies_improve` (FakeProps): SNFC; `C178_first_vocabulary` (FakeProps): SNF; `C178_first_vocabulary_refuted` (FakeProps): SNFC |
| C179 | `C179_trained_states_rejected` (FakeProps): SNF; `C179_new_states_work` (FakeProps): SNF; `C179_trained_states_refuted` (FakeProps): SNF |
| C180 | `C180_measurements` (FakeProps): SNF; `C180_other_numbers_fail` (FakeProps): SNF; `C180_likelihoods_kept` (FakeProps): SNF; `C180_zero` (FakeProps): SNF; `C180_iterations_refuted` (FakeProps): SNF |
| C181 | `C181_query_improves` (FakeProps): SNFC |
| C182 | `C182_training_never_returns` (UvProps): -; `C182_exceptions` (UvProps): -; `C182_training_refuted` (UvProps): - |
| C183 | `C183_queries_fail` (UvProps): -; `C183_queries_refuted` (UvProps): - |
| C184 | `C184_vec` (UvProps): -; `C184_unvec_fails` (UvProps): -; `C184_unvec_refuted` (UvProps): - |
| C185 | `C185_always_lower` (HyperProps): SF; `C185_vb_always_lower` (HyperProps): SF; `C185_less_likely` (HyperProps): SNFC; `C185_likelihood_refuted` (HyperProps): SNFC; `C185_training_never_raises` (HyperProps): SNFC |
| C186 | `C186_fixed_points` (HyperProps): SNFC; `C186_regularizer_alone` (HyperProps): SNFC; `C186_strength_refuted` (HyperProps): SNFC |
| C187 | `C187_links_gradient` (HyperProps): SNFC; `C187_pseudo_negatives_are` (HyperProps): SNFC; `C187_pseudo_negatives_differ` (HyperProps): SNFC; `C187_push_too_weak` (HyperProps): SNFC; `C187_gradient_refuted` (HyperProps): SNFC |
| C188 | `C188_intercept` (HyperProps): SF; `C188_scaled_by_the_prior` (HyperProps): SF; `C188_symmetric_prior` (HyperProps): SF; `C188_stand_in_refuted` (HyperProps): SF |
| C189 | `C189_which_priors` (HyperProps): SF; `C189_no_query_state` (HyperProps): SF; `C189_prior_arguments_refuted` (HyperProps): SF |
| C190 | `C190_positive` (HyperProps): SF; `C190_uninitialised` (HyperProps): SF; `C190_empty_document` (HyperProps): SF; `C190_estimate_refuted` (HyperProps): SF |
| C191 | `C191_evidence_distribution` (BoundProps): SNFC; `C191_below_evidence` (BoundProps): SNFC |
| C192 | `C192_usable_iff` (BoundProps): SNFC; `C192_trainable_has_bound_refuted` (BoundProps): SNFC |
| C193 | `C193_training_improves` (BoundProps): SNFC |
| C194 | `C194_below_evidence` (BoundProps): SNFC; `C194_figure_orders_bounds_refuted` (BoundProps): SNFC |
| C195 | `C195_below_evidence` (BoundProps): SNFC |
| C196 | `C196_posterior_kept` (StationProps): SNFC; `C196_sweep_is_visits` (StationProps): - |
| C197 | `C197_forgets_start` (StationProps): SNFC |
| C198 | `C198_recorded` (StationProps): SF; `C198_averages_converge` (StationProps): SNFC; `C198_limit_predicts` (StationProps): SNFC |
| C199 | `C199_posterior_kept` (StationProps): SNFC; `C199_forgets_start` (StationProps): SNFC; `C199_averages_converge` (StationProps): SNFC; `C199_query_counts` (StationProps): -; `C199_models_words_refuted` (StationProps): SNFC |
| C200 | `C200_no_words_evidence` (MixBoundProps): SNFC; `C200_evidence_shared_by_words` (MixBoundProps): SNFC; `C200_bound_below_evidence` (MixBoundProps): SNFC; `C200_topics_are_best` (MixBoundProps): SNFC; `C200_model_is_best` (MixBoundProps): SNFC; `C200_training_improves` (MixBoundProps): SNFC; `C200_query_is_best` (MixBoundProps): SNFC; `C200_likelihood_rises_refuted` (MixBoundProps): SNFC |
| C201 | `C201_first_sweep` (MomProps): SNFC; `C201_sweep_is_visits` (MomProps): SNFC; `C201_query_is_average` (MomProps): SNFC; `C201_posterior_kept` (MomProps): SNFC; `C201_forgets_start` (MomProps): SNFC; `C201_averages_converge` (MomProps): SNFC; `C201_averages_defined` (MomProps): SNFC; `C201_words_as_given` (MomProps): SNFC; `C201_own_posterior_refuted` (MomProps): SNFC |
| C202 | `C202_chance_of_component` (MomProps): SNFC; `C202_more_members_more_likely` (MomProps): SNFC; `C202_empty_component_least` (MomProps): SNFC; `C202_members_repel` (MomProps): SNFC; `C202_default_prior_up_to_nine` (MomProps): SF; `C202_default_prior_gathers_refuted` (MomProps): SNFC; `C202_default_prior_fails` (MomProps): SNFC; `C202_default_prior_works_refuted` (MomProps): SNFC |
| C203 | `C203_scale_is_best` (OffProps): SNF; `C203_scale_fits_offsets_refuted` (OffProps): SNF; `C203_scale_positive_refuted` (OffProps): SNF; `C203_variances_refuted` (OffProps): SNF |
| C204 | `C204_offsets_are` (OffProps): SNF; `C204_unlinked_document_shrinks` (OffProps): SNF; `C204_offsets_best_refuted` (OffProps): SNF |
| C205 | `C205_raises_value_error_only` (OffProps): SNF; `C205_one_iteration` (OffProps): SNF; `C205_no_links_raises` (OffProps): SNF; `C205_always_trains_refuted` (OffProps): SNF |
| C206 | `C206_order_of_documents` (OffProps): SNF; `C206_query_keeps_model` (OffProps): SNF; `C206_query_starts_afresh` (OffProps): SNF; `C206_trained_topics_kept` (OffProps): SNF; `C206_no_iterations` (OffProps): SNF |
| C207 | `C207_posterior_kept` (DmrLawProps): SNFC; `C207_forgets_start` (DmrLawProps): SNFC; `C207_recorded` (DmrLawProps): SF; `C207_averages_converge` (DmrLawProps): SNFC; `C207_sweep_is_visits` (DmrLawProps): -; `C207_fitted_model_refuted` (DmrLawProps): SNFC |
| C208 | `C208_posterior_kept` (DmrLawProps): SNFC; `C208_forgets_start` (DmrLawProps): SNFC; `C208_averages_converge` (DmrLawProps): SNFC; `C208_query_counts` (DmrLawProps): -; `C208_models_words_refuted` (DmrLawProps): SNFC |
| C209 | `C209_each_topic_alone` (DmrUpdate): SNFC; `C209_one_topic_improves` (DmrUpdate): SNFC; `C209_raises_posterior_refuted` (DmrUpdate): SNFC |
| C210 | `C210_model_options` (CliProps): -; `C210_plan_options` (CliProps): -; `C210_plans_used` (CliProps): -; `C210_query_iterations_refuted` (CliProps): -; `C210_vocab_prior` (CliProps): -; `C210_vocab_prior_elsewhere` (CliProps): -; `C210_vocab_prior_refuted` (CliProps): -; `C210_logging_options_unused` (CliProps): -; `C210_logging_refuted` (CliProps): -; `C210_debug_false_refuted` (CliProps): - |
| C211 | `C211_named_models_configured` (CliProps): -; `C211_unknown_names_rejected` (CliProps): -; `C211_names_documented_refuted` (CliProps): -; `C211_gradient_options` (CliProps): -; `C211_gradient_options_elsewhere` (CliProps): -; `C211_svb_needs_batch_size` (CliProps): -; `C211_svb_refuted` (CliProps): - |
| C212 | `C212_accepted_iff` (CliProps): -; `C212_otherwise` (CliProps): -; `C212_perplexity_refuted` (CliProps): -; `C212_cvb0_refuted` (CliProps): -; `C212_links_refuted` (CliProps): - |
| C213 | `C213_read_back` (ReshapeProps): -; `C213_no_entries` (ReshapeProps): -; `C213_without_map` (ReshapeProps): -; `C213_adjacent_entries_refuted` (ReshapeProps): -; `C213_entries_after_missing_map_refuted` (ReshapeProps): - |
| C214 | `C214_first_fold` (ReshapeProps): -; `C214_final_results_refuted` (ReshapeProps): - |
| C215 | `C215_rows` (ReshapeProps): -; `C215_titles` (ReshapeProps): -; `C215_eleven_cells_refuted` (ReshapeProps): -; `C215_missing_means_refuted` (ReshapeProps): - |
| C216 | `C216_fields` (ArxivProps): -; `C216_directory` (ArxivProps): -; `C216_bad_line_refuted` (ArxivProps): - |
| C217 | `C217_authors` (ArxivProps): -; `C217_comma_and_refuted` (ArxivProps): - |
| C218 | `C218_letters` (ArxivProps): -; `C218_plain` (ArxivProps): -; `C218_particle` (ArxivProps): -; `C218_suffix` (ArxivProps): -; `C218_initials` (ArxivProps): -; `C218_short_names_refuted` (ArxivProps): - |
| C219 | `C219_authors` (ArxivProps): -; `C219_semicolon_refuted` (ArxivProps): - |
| C220 | `C220_equal` (CopyProps): -; `C220_independent` (CopyProps): -; `C220_with_topic_model` (CopyProps): -; `C220_complete` (CopyProps): -; `C220_shared` (CopyProps): -; `C220_trained_cvb_refuted` (CopyProps): -; `C220_number_prior_refuted` (CopyProps): - |
| C221 | `C221_folds` (CopyProps): -; `C221_learned_priors_refuted` (CopyProps): - |
| C222 | `C222_distributions` (CopyProps): SNF; `C222_unavailable_refuted` (CopyProps): SNF |
| C223 | `C223_saved` (NumtextProps): -; `C223_read_to_the_end` (NumtextProps): -; `C223_later_points_refuted` (NumtextProps): -; `C223_single_number_refuted` (NumtextProps): -; `C223_unended_line_refuted` (NumtextProps): - |
| C224 | `C224_agree` (NumtextProps): -; `C224_negative_refuted` (NumtextProps): -; `C224_short_line_refuted` (NumtextProps): - |
| C225 | `C225_unbounded_refuted` (BohBoundProps): SNFC; `C225_not_a_bound_refuted` (BohBoundProps): SNFC; `C225_side_topics_refuted` (BohBoundProps): SNFC; `C225_reported` (BohReportProps): SNFC; `C225_side_reported` (BohReportProps): SNFC |
| C226 | `C226_same_topics_refuted` (LinkBoundProps): SNFC; `C226_not_a_bound_refuted` (LinkBoundProps): SNFC; `C226_reported` (LinkReportProps): SNFC; `C226_words` (LinkReportProps): SNFC |
| C227 | `C227_matrix_variate` (StartProps): SF; `C227_correlated` (StartProps): SF; `C227_absent_words_refuted` (StartProps): SF; `C227_bouchard` (StartProps): SF; `C227_ends` (StartProps): SF; `C227_no_words_refuted` (StartProps): SF; `C227_means` (StartProps): SF |
| C228 | `C228_topics` (StartProps): SNFC; `C228_variances` (StartProps): SNFC; `C228_centred` (StartProps): SNFC; `C228_model_mean` (StartProps): SNFC |
| C229 | `C229_sampled` (StartProps): SF; `C229_variational` (StartProps): SF; `C229_read_refuted` (StartProps): SF; `C229_variational_refuted` (StartProps): SNF |
| C230 | `C230_clone_iff` (EstProps): -; `C230_clone` (EstProps): -; `C230_clones_agree` (EstProps): -; `C230_clone_of_set_refuted` (EstProps): -; `C230_set_iterations` (EstProps): -; `C230_set_others` (EstProps): -; `C230_set_accepted` (EstProps): -; `C230_set_is_construct_refuted` (EstProps): -; `C230_copy_refuted` (EstProps): - |
| C231 | `C231_start` (EstProps): -; `C231_reproducible` (EstProps): -; `C231_assigned` (EstProps): -; `C231_gibbs_ignores_seed` (EstProps): -; `C231_last_seed_counts` (EstProps): -; `C231_own_seed_refuted` (EstProps): -; `C231_gibbs_seed_refuted` (EstProps): - |
| C232 | `C232_every_kind` (EstProps): -; `C232_online` (EstProps): -; `C232_gibbs` (EstProps): -; `C232_zero_burn_in_refuted` (EstProps): -; `C232_ignored_refuted` (EstProps): - |
| C233 | `C233_default` (EstProps): -; `C233_default_values` (EstProps): -; `C233_numbers` (EstProps): -; `C233_vectors` (EstProps): -; `C233_accepted` (EstProps): -; `C233_numbers_refuted` (EstProps): -; `C233_only_the_mean` (EstProps): -; `C233_precision_refuted` (EstProps): -; `C233_uneven_refuted` (EstProps): - |
| C234 | `C234_default` (EstProps): -; `C234_default_values` (EstProps): -; `C234_numbers` (EstProps): -; `C234_other_numbers` (EstProps): -; `C234_vectors` (EstProps): -; `C234_accepted` (EstProps): -; `C234_vectors_refuted` (EstProps): - |
| C235 | `C235_expected_refuted` (EstProps): -; `C235_gibbs_perplexity_refuted` (EstProps): -; `C235_gibbs_given_topics_refuted` (EstProps): -; `C235_point` (EstProps): -; `C235_point_perplexity` (EstProps): -; `C235_expected` (EstProps): - |
| C236 | `C236_several_documents` (EstProps): -; `C236_single_document_refuted` (EstProps): -; `C236_long_counts_refuted` (EstProps): - |
| C237 | `C237_iterations` (EstProps): -; `C237_unseen_words_refuted` (EstProps): -; `C237_gibbs_refuted` (EstProps): -; `C237_mom_gibbs_refuted` (EstProps): -; `C237_compiled_refuted` (EstProps): -; `C237_enough` (EstProps): - |
| C238 | `C238_given` (WrapProps): SNFC; `C238_inferred` (WrapProps): SNFC; `C238_completion` (WrapProps): SNFC; `C238_bounds` (WrapProps): SNFC; `C238_floor` (WrapProps): SNFC; `C238_uniform` (WrapProps): SNFC |
| C239 | `C239_lda_needs_doubles_refuted` (WrapProps): SNFC; `C239_hdp_needs_reals_refuted` (WrapProps): SNFC; `C239_accepted` (WrapProps): SNFC |
| C240 | `C240_expected_refuted` (WrapProps): SNFC; `C240_query_state_refuted` (WrapProps): SNFC; `C240_online_refuted` (WrapProps): -; `C240_batch` (WrapProps): - |
| C241 | `C241_resume` (WrapProps): -; `C241_ready` (WrapProps): -; `C241_succeeds` (WrapProps): -; `C241_from_the_start` (WrapProps): -; `C241_ignored` (WrapProps): -; `C241_iterations_refuted` (WrapProps): -; `C241_again_refuted` (WrapProps): - |
| C242 | `C242_same_result` (DebugProps): SNFC; `C242_same_answer` (DebugProps): SNFC; `C242_training_finishes` (DebugProps): SNFC; `C242_query_finishes` (DebugProps): SNFC; `C242_ctm_finishes` (DebugProps): SNFC; `C242_query_stops` (DebugProps): SNFC; `C242_stm_yv_stops` (DebugProps): SNFC; `C242_infinite_stops` (DebugProps): SNFC; `C242_harmless_refuted` (DebugProps): SNFC |
| C243 | `C243_other_arrays` (DebugProps): SNFC; `C243_no_arrays` (DebugProps): SNFC; `C243_serial` (DebugProps): SNFC; `C243_means_reset` (DebugProps): SNFC; `C243_exponentials_kept` (DebugProps): SNFC; `C243_reset_refuted` (DebugProps): SNFC; `C243_means_lost_refuted` (DebugProps): SNFC |
| C244 | `C244_own_bounds` (DebugProps): SNFC; `C244_lines` (DebugProps): SNFC; `C244_own_refuted` (DebugProps): SNFC |
| C245 | `C245_tokens` (OpsProps): -; `C245_covers_vocabulary` (OpsProps): -; `C245_statistics` (OpsProps): -; `C245_vocabulary_refuted` (OpsProps): -; `C245_names_refuted` (OpsProps): -; `C245_scores_refuted` (OpsProps): SNFC |
| C246 | `C246_values` (OpsProps): SNFC; `C246_operations` (OpsProps): SNFC; `C246_reads_inside` (OpsProps): SNFC; `C246_shapes_checked_refuted` (OpsProps): SNFC; `C246_inner_dimension_refuted` (OpsProps): SNFC |
| C247 | `C247_which_types_work` (OpsProps): SNFC; `C247_whole_numbers` (OpsProps): SNFC; `C247_counts_refuted` (OpsProps): SNFC |
| C248 | `C248_popular_hashtags` (TagProps): -; `C248_repeats_refuted` (TagProps): -; `C248_empty_word_refuted` (TagProps): - |
| C249 | `C249_filled` (ReportProps): -; `C249_only_templates` (ReportProps): -; `C249_doubled_dollars` (ReportProps): - |
| C250 | `C250_side_topic_reports` (ReportProps): -; `C250_reports_are_not_outputs` (ReportProps): -; `C250_correlated_reports_refuted` (ReportProps): -; `C250_errors_refuted` (ReportProps): -; `C250_builtin_templates_refuted` (ReportProps): -; `C250_folds_refuted` (ReportProps): - |
| C251 | `C251_outputs_listed` (ReportProps): -; `C251_saved_outputs_listed` (ReportProps): -; `C251_directories_refuted` (ReportProps): -; `C251_latent_sizes_refuted` (ReportProps): -; `C251_command` (ReportProps): - |
| C252 | `C252_numbering` (SymProps): SNFC; `C252_minibatches_refuted` (SymProps): SNFC |
| C253 | `C253_training` (SymProps): SNF; `C253_query` (SymProps): SNF; `C253_side_topic_query` (SymProps): SNF |
| C254 | `C254_training` (SymProps): SNF; `C254_query` (SymProps): SNF |
| C255 | `C255_same` (EarlyProps): SNF; `C255_other_sizes_refuted` (EarlyProps): SNF |
| C256 | `C256_words` (EarlyProps): SNF; `C256_distributions` (EarlyProps): SNF; `C256_links` (EarlyProps): SNFC |
| C257 | `C257_by_topic` (EarlyProps): SNFC; `C257_not_updated` (EarlyProps): SNF; `C257_stale_refuted` (EarlyProps): SNFC |
| C258 | `C258_asymmetry` (EarlyProps): SNF; `C258_symmetric_refuted` (EarlyProps): SNFC |
| C259 | `C259_query_refuted` (EarlyProps): SNFC; `C259_copy_equal` (EarlyProps): -; `C259_copy_shares_refuted` (EarlyProps): - |
| C260 | `C260_few_documents_refuted` (EarlyProps): SNF |
| C261 | `C261_predicts_refuted` (EarlyProps): - |
| C262 | `C262_fails_refuted` (EarlyProps): SF; `C262_nothing_to_do` (EarlyProps): SF |
| C263 | `C263_complete` (EarlyProps): SF; `C263_other_frequencies_refuted` (EarlyProps): SF; `C263_early_stop_refuted` (EarlyProps): SF; `C263_no_frequency_refuted` (EarlyProps): - |
| C264 | `C264_words` (VecyProps): SNF; `C264_training` (VecyProps): SNF |
| C265 | `C265_features` (VecyProps): SNF; `C265_places` (VecyProps): SNF; `C265_directions` (VecyProps): SNF; `C265_directions_refuted` (VecyProps): SNF |
| C266 | `C266_callers_order` (VecyProps): SNF; `C266_order_of_documents` (VecyProps): SNF |
| C267 | `C267_sorted_weights` (VecyProps): SNF; `C267_order_refuted` (VecyProps): SNFC; `C267_stale_refuted` (VecyProps): SNFC |
| C268 | `C268_means_improve` (VecyProps): SNFC |
| C269 | `C269_query_improves` (VecyProps): SNFC; `C269_same_as_stm_yv` (VecyProps): SNF; `C269_no_iterations` (VecyProps): -; `C269_single_document_refuted` (VecyProps): SNF |
| C270 | `C270_sparse_features` (VecyProps): SNF; `C270_dense_features_refuted` (VecyProps): -; `C270_no_iterations_refuted` (VecyProps): - |
| C271 | `C271_topics_kept` (UyvProps): SNFC; `C271_fitted_refuted` (UyvProps): SNFC |
| C272 | `C272_maps` (UyvProps): SNFC |
| C273 | `C273_distributions` (UyvProps): SNFC; `C273_likelihood` (UyvProps): SNFC; `C273_new_model` (UyvProps): SF; `C273_new_model_refuted` (UyvProps): SF |
| C274 | `C274_never_worse` (UyvProps): SNFC; `C274_empty_refuted` (UyvProps): SNF |
| C275 | `C275_best_updates` (UyvProps): SNFC; `C275_rest` (UyvProps): SNFC |
| C276 | `C276_outcomes` (UyvProps): SNFC; `C276_default_plan_refuted` (UyvProps): SNFC; `C276_input_refuted` (UyvProps): SNFC |
| C277 | `C277_schedule` (UyvProps): SNFC; `C277_single_refuted` (UyvProps): SNFC; `C277_count_refuted` (UyvProps): SNFC |
| C278 | `C278_latent` (OldProps): SNFC; `C278_projection` (OldProps): SNFC; `C278_features` (OldProps): SNFC; `C278_features_refuted` (OldProps): SNFC |
| C279 | `C279_bound` (OldProps): SNFC; `C279_new` (OldProps): SF |
| C280 | `C280_log_refuted` (OldProps): SNFC; `C280_ends` (OldProps): SNFC; `C280_empty_refuted` (OldProps): SNFC |
| C281 | `C281_kept` (OldProps): SNFC; `C281_offset_refuted` (OldProps): SNFC |
| C282 | `C282_documents` (OldProps): SNFC |
| C283 | `C283_printed` (OldBoundProps): SNFC; `C283_order_refuted` (OldBoundProps): SNFC |
| C284 | `C284_kept` (UyProps): SNFC; `C284_words_refuted` (UyProps): SNFC; `C284_exponentials_refuted` (UyProps): SNFC |
| C285 | `C285_completes` (UyProps): SNFC; `C285_latent` (UyProps): SNFC; `C285_features` (UyProps): SNFC; `C285_projection` (UyProps): SNFC; `C285_scale_refuted` (UyProps): SNFC; `C285_settings_refuted` (UyProps): SF |
| C286 | `C286_fields` (OldVecyProps): -; `C286_new` (OldVecyProps): -; `C286_train` (OldVecyProps): -; `C286_bound` (OldVecyProps): -; `C286_usable_refuted` (OldVecyProps): - |
| C287 | `C287_reported` (YvBoundProps): SNFC; `C287_order_refuted` (YvBoundProps): SNFC; `C287_not_positive_refuted` (YvBoundProps): SNFC |
| C288 | `C288_words` (MtmBoundProps): SNFC; `C288_links` (MtmBoundProps): SNFC; `C288_shift_refuted` (MtmBoundProps): SNFC; `C288_not_positive_refuted` (MtmBoundProps): SNFC |
| C289 | `C289_words` (UyvBoundProps): SNFC; `C289_order_refuted` (UyvBoundProps): SNFC |
| C290 | `C290_covariance` (UyBoundProps): SNFC; `C290_one_topic_refuted` (UyBoundProps): SNFC; `C290_order_refuted` (UyBoundProps): SNFC |
| C291 | `C291_value` (LeftProps): SNFC; `C291_words` (LeftProps): SF; `C291_links_refuted` (LeftProps): SNFC; `C291_memory` (LeftProps): SNFC; `C291_memory_refuted` (LeftProps): SNFC |
| C292 | `C292_gradient` (LeftProps): SNFC; `C292_second` (LeftProps): SF; `C292_newton` (LeftProps): SF; `C292_stays` (LeftProps): SF; `C292_estimate` (LeftProps): SNFC |
| C293 | `C293_value` (LeftProps): SNFC; `C293_shapes` (LeftProps): SNFC; `C293_error` (LeftProps): -; `C293_error_refuted` (LeftProps): - |
| C294 | `C294_new` (LeftProps): SF; `C294_raises` (LeftProps): SF; `C294_topics` (LeftProps): SF; `C294_state` (LeftProps): SF; `C294_no_query` (LeftProps): SF; `C294_no_query_refuted` (LeftProps): SF |
| C295 | `C295_count` (PureProps): SNFC; `C295_topics` (PureProps): SNFC; `C295_even` (PureProps): SNFC; `C295_odd` (PureProps): SNFC; `C295_odd_refuted` (PureProps): SNFC; `C295_order_refuted` (PureProps): SNFC |
<!-- end assumptions -->

## 6. Findings

Faults met while transcribing the code. Where a property is about one, its number
is given; the others are recorded for whoever maintains the code.

Samplers
* `lda_gibbs.seed_rng(seed)` ignores its argument. A query adds its initial
  assignments to the counts of the model. A thinning of zero divides by zero; default
  plans below five iterations take no sample (C86).
* `mom_gibbs.train` collects samples and drops them (C88); its default thinning is
  `min(1, iterations // 10)`, so zero below ten iterations; logging raises a
  NameError (C44); the default alpha is below one for more than ten components;
  `sample_dirichlet` misspells `dtype`.
* `dmr`: topics are sampled under `x.w`, weights fitted for `exp(x.w)` (C128); each
  call of the sampler starts at slot zero (C127); training overflows its sample buffer
  for default plans below 50 iterations, queries from 20 (C62); a document without
  features and one word is written before the start of a row (C126); a query's model
  mixes numbers of samples (C129).

Variational methods
* `lda_vb_python`: `updateVocab` is ignored, so queries overwrite the model (C50); the first
  default step is larger than one (C115); the Amari rate converts twice (C114);
  mini-batches are not scaled (C116); a batch size forces the kappa rate (C117); new
  models loop forever on empty documents (C118); single documents fail (C119).
* `lda_vb_fast.pyx` defines `iterate_f64` twice and never advances its batch counter, so
  stochastic training never learns (C151). Its inner loop resets the topics before use, so
  all passes are the first (C144), and adds D/K to the prior (C145, C146).
* `lda_vb`: accessors normalise in place, so looking at a model changes it (C148) and logging
  changes training (C149); queries call the double function for both precisions (C150); the
  bound sums over rows that were never written (C152).
* `lda_svb.newQueryState` takes two arguments; the wrapper passes three.
* `lda_cvb`: variances of the current token are not excluded; single precision misses a
  factor (C79); further training overwrites totals with variances (C80).
* `mom_em`: `var_bound` reads a field that the model lacks (C96); queries without
  iterations fail (C94); the expected likelihood with a query state fails (C95).
* `rtm`: queries always fail (C123). `mtm`: the sparse branch of `link_probs` subscripts a method.
* `ctm_bohning`: the covariance is reset to the identity (C133); fast queries return
  the softmax of their initial means (C134); single documents fail (C135);
  `topicDists` reads a field that the query state lacks.
* `stm_yv_bohning`: topic weights are neither sorted nor put back (C61); updates of
  the vocabulary use raw counts, then old weights (C137); no iterations fail (C61).
* `stm_yv_bohning_fake_online.py` (line 308) reads a batch from the rows where its documents
  are, though it is stored from the first row: unless all documents have one length the
  longest one's means are divided by zero, and the next iteration fails (C175); corpora larger
  than the buffer make compiled code read outside it (C176); the first iteration's vocabulary
  does not depend on the words (C178); the returned state has the buffer's number of rows in
  sorted order (C179); arrays of measurements as in `ctm.py` (C180).
* `stm_uv_vec_y_bohning.py` cannot be trained: 363 features are written into the code, `unvec`
  divides to a float, and the last line gives three values to a tuple of two (C182); `query`
  and `topicDists` read fields that query states do not have (C183).
* `rtm.py` (line 634) and `lda_vb_python.py` (line 716) subtract the digamma of each entry of
  the prior where that of the sum belongs: the prior falls in every update (C185).
* `_infer_weights` of `rtm.py`: the regulariser pulls the wrong way (C186), pseudo-negatives
  are divided by the probability of a link instead of that of none (C187), and are not
  normalised (C188).
* `newModelAtRandom` of `rtm.py` fails for the priors its comment describes, and
  `newQueryState` always fails, as it draws with a parameter set to zero (C189).
* `inferPolyaHyperSingle` (`lda_gibbs_fast.pyx`, and its copy in `dmr_fast.pyx`) adds to a
  variable that is not set; empty documents give NaN (C190).
* `var_bound` of `lda_vb_python.py` needs a word prior that is a Python number, `train` does not
  take vectors (C192). `lda_cvb` and `lda_cvb0` subtract the entropy from their figures where
  it belongs added (C194).
* A query of `lda_gibbs.py` counts its own first assignment among the words of the model, and
  never takes it out, so that what it samples from depends on that assignment (C199).
* `mom_gibbs.py` samples memberships from the posterior of a prior one less than the model's
  (line 186; C201). The default prior `5/K + 1/2` (line 80) is at most one from ten components
  on; with few documents the weights sum to a negative number, and documents avoid the
  components that have members; when the sum is zero, sweeps raise ValueError (C202).
* `model/lda_cvb.py` lines 79-81: v_dk, v_kt, v_k of a copy are n_dk, n_kt, n_k (C220); `model/lda_gibbs.py` line 114 with
  `model/lda_gibbs_fast.pyx` lines 279-283: the shared prior over words is written to (C221); `model/ctm_bohning.py` 83-86,
  `mtm2.py` 84-87, `mtm3.py` 97-100, `stm_uv_vec_y_bohning.py` 93-96: topicDists reads a field of the model from the query (C222).
* `model/ctm_bohning.py` line 444, `model/stm_yv_bohning.py` line 500, `model/mtm2.py` line 504: the quadratic term of Böhning's bound is added, not
  subtracted, and twice, so the figure reported grows without end; `ctm_bohning.py` line 425 subtracts the determinant of the
  covariance and not its logarithm, and line 431 leaves out the entropy (C225). `mtm2.py` computes weights of links for its bound and leaves them out.
* `model/mtm3.py` lines 661-663 and 667-669: the entropy of the assignments is added with the wrong sign, and the maximum that is
  subtracted before exponentials are taken (622) is not put back (657-658), so the bound depends on a number that nothing else
  depends on (C226); lines 652 and `mtm2.py` 495 pass the in-links to a function that reads them transposed, without bounds checks.
* `model/mtm3.py` line 161 with `model/lda_vb.py` lines 349-353: the words of a saved variational LDA model are not copied, and
  training (395-397) overwrites them, so later folds of an evaluation start from what earlier ones learnt (C229).
* `model/ctm_bohning.py` line 124: the first topic gives words that do not occur no probability; lines 116-120 and `ctm.py`
  100-104 never end for a corpus without words (C227).
* `model/sklearn/lda_cvb.py` line 233: copy() constructs a TopicModel without its kind, a TypeError (C230); lines 221-226: a
  seed is set in the process, not in the estimator, so constructing a second estimator before the first is fitted changes the first's
  model; `lda_gibbs.py` 178-180 seed with a constant (C231).
* `model/sklearn/lda_cvb.py` lines 306-337: batches do not reach LDA_SVB nor burn-in and thinning MOM_GIBBS (C232).
* `model/lda_cvb0.py` line 219, `lda_cvb.py` line 230: a prior for each topic is replaced by its mean (C233).
* `model/sklearn/lda_cvb.py`: models trained for fewer than ten iterations transform documents without looking at the words (C237).
* `model/sklearn/lda_cvb.py` line 629: `learning_offsetfloat` is not an argument of scikit-learn, so online training raises (C240);
  line 743: the wrapped LDA does not score counts that are not doubles; lines 907-912: the wrapped HDP rounds topics to integers for
  integer counts and then raises (C239); lines 656-658: `iterations` given to fit is ignored, though the tests pass it (C241).
* `model/mtm2.py` lines 378, 395: queries pass the word matrix to debugging that expects a corpus, so that debugging a query always
  raises (C242). `model/ctm_bohning.py` 482, `stm_yv_bohning.py` 531, `mtm2.py` 627, `mtm3.py` 813: infinite bounds raise in `int`.
* `model/stm_yv.py` lines 484-497: `var_bound` takes exponentials of the means in place; means that underflow are minus infinity
  afterwards (C243). `ctm.py` 446, `ctm_bohning.py` 436, `stm_yv_bohning.py` 492 overwrite `expMeans`.
* `model/common.py` `gensim_dictionary`: the tokens end at the last word that occurs; scoring a later word reads outside the topics, and
  tokens are not named as documented (C245).
* `util/sparse_elementwise.py`: the compiled operations check neither the number of columns nor the inner dimension (C246), and counts of whole
  numbers with parameters in floating point raise (C247).
* `run/__main__.py` lines 533, 642, 1106: evaluations of tags and of unseen documents query with the training plan, so that `--query-iters` has no
  effect (C210). `popular_hashtag_indices`: an empty word in the dictionary raises, a repeated hashtag is found twice (C248).
* `run/report_generator.py` line 20: the built-in templates are looked for in `sidetopics/notebooks`, but are in `notebooks` beside it, so that
  every run with outputs and without `--template-dir` raises; lines 167-169, 209-211: errors raise, zero folds are not returned (C250). Lines 90-101: side-topic
  reports without `--lat-sizes` raise UnboundLocalError; lines 133-135: apostrophes in directories are not escaped (C251).
* `run/text_to_numpy.py` lines 22, 48: the type is that of the first line; line 60: one number fills a row; line 74: `wc -l`
  does not count a last line without an end (C223); line 32: negative numbers are left out (C224).
* `run/arxiv_to_aan.py` line 128: a line without a colon raises IndexError, not caught in line 229 (C216); line 10:
  after ", " the word and is part of a name (C217); lines 59-64: two words, or one with a final full stop (C218).
* `run/reshape_results.py` line 215: the line read after an entry is thrown away, so adjacent entries lose a
  name (C213); lines 178-179 with 205: the blank line that ends an entry without mean average
  precision also ends the reading of the file (C213); line 19 with `run/__main__.py` lines 659, 1016:
  the means of the folds do not match the prefix, so that tables of the first fold are joined to final means (C214).
* `run/__main__.py` lines 216, 219: `--vocab-prior` is passed in the position of `topicPrior` (C210); lines
  104-111: `--log-freq` and `--min-vb-change` are never used; line 126: `type=bool` makes every
  non-empty `--debug`, also `False`, true (C210).
* `mom_em.newQueryState` and `mom_gibbs.newQueryState` require `debug`, `lda_cvb0` has no `log_likelihood`:
  no evaluation of the command line works with them (C212). Link functions take three arguments in
  `rtm.py` and `mtm2.py`, four or five in `mtm3.py`, `lro_vb.py` and `sim_based_rec.py`; each evaluation works with one family (C212).
* `dmr.py` lines 234-246: every topic's weights are optimised against the old weights of all others
  and replaced together; the posterior may fall even if each optimum is exact (C209).
* `dmr.py` lines 199, 209, 342: the sampler's prior is `X.dot(weights.T)`, not its exponential, for which the
  weights are fitted, so that it samples from another law (C207; see C128).
* `lro_vb.py`: the offset update multiplies the summed topics of the linking documents by the
  document's own topics (lines 217-218) instead of squaring them, and lacks `noiseVar` on the
  right (line 222), so that offsets are not optimal (C204) and the scale may turn negative
  (C203); `predVar` holds precisions, not variances (lines 91, 181); without links training
  raises ValueError (C205).
* `ctm.py` and `stm_yv.py` square the variance in the tangents (C166); the offset is right for
  two topics only (C167); subtracting the first topic's mean gives that topic a special role
  (C168); the arrays of measurements are too short unless the logging interval divides the
  number of iterations (C169); `var_bound` of `ctm.py` takes the determinant for its logarithm
  and forgets the maximum taken off the means (C171); queries of `ctm.py` keep the shares of
  the start; `newQueryState` leaves out the factor two that training's curvatures have;
  training of `stm_yv.py` uses the words' shares of the old vocabulary (C165); its
  debugging output builds a tuple without all fields (C174).
* `mtm_vb` cannot be trained (C153). `mtm2_vb` ignores the document covariance (C159),
  counts links into a document with the wrong shares (C156), may worsen the in-topics
  (C158), counts links in queries without explaining them (C160). The likelihoods of both
  read the documents' distributions transposed (C162); their bounds do the same. Queries
  of `mtm_vb` use the shares of the start (C161). `topicDists` of both reads a field that
  query states do not have. Training of `mtm2_vb` starts with all in-document covariances
  at one, whatever the query state has.

Data and evaluation
* `prune_and_shuffle` needs categories (C66) and drops link columns (C65); its caller in
  `run/__main__.py` passes a keyword that does not exist.
* Document completion can give negative counts when the jitter exceeds two thirds (C15).
* In-sample link evaluations weigh reciprocal ranks by documents and divide by zero when
  a group of sizes is empty in the first two folds (C138); out-of-sample ones empty
  their caller's list of features and need a saved LDA model for LDA-based
  recommenders; models saved by runs over folds are accepted for the whole dataset
  with the topics of the training part (C140).
* `link_split_prec_rec` unpacks a model as seven values; `rtm` and `mtm2` take three
  arguments in `min_link_probs`, the in-sample evaluation passes five.
* `text_to_numpy`: sparse output drops negative values; the type is decided by the first
  line; a row of one value is broadcast.
* The tag driver hides nothing (C101) and measures nothing (C103).
* Readers of result files divide by zero (C113), stop at blank lines and miss
  per-fold lines; the selection of users stops early and short of its target (C58, C111).
* `TopicModel.copy` always raises a TypeError; zero iterations mean the default.
* `vec_transpose` of other element types reads `A.order`, which does not exist;
  `scaledSelfSoftDot` ignores its scale (C73).

## 7. Testing the theorems

`seeded/LOG.jsonl` records edits made to the definitions in scratch copies, one line
each: the definition, the edit, the claims it breaks, the theorems that failed, and the
theorems that were tightened because they did not.
