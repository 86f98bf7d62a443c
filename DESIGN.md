# Formal model of irkri/fruits in Rocq (Coq 8.16.1)

The model is in `rocq/theories/` (logical name `Verif`).

## File layout

| prefix | contents |
|---|---|
| `Num.v`, `Arr.v` | operational number class (no laws) and the numpy list operations the code uses |
| `M_*.v` | the model: definitions only, each with a comment citing the file and lines of `/repo` it models |
| `S_*.v` | small specifications that do not mention the model |
| `L_*.v` | lemmas and the proofs |
| `P_*.v` | property theorems: statement, `Print Assumptions`, and `Example`s that show the hypotheses are met |
| `T_*.v` | runs of the model (over `Q` or on states): literal programs and tables (tests, not proofs) |

| model file | code |
|---|---|
| `M_Str` | Python strings, `str(int)`, `int(str)`, `split`, `join` |
| `M_Semiring` | `iss/semiring.py` (all kernels, fast and slow path, argmax) (weights are arguments) |
| `M_Custom` | `iss/semiring.py` 12-90, `iss/iss.py`: an ISS over a user-defined subclass of `Semiring` |
| `M_Words` | `iss/words/word.py` (SimpleWord and the functional view of Word), `iss/words/letters.py`, `iss/words/creation.py` |
| `M_Par`, `S_Par` | every `numba.prange` loop as interleaved iterations over a shared array |
| `M_FruitIter` | iteration over a Fruit |
| `M_PyEq` | `__eq__` of all preparateurs, constructor arguments as Python values |
| `M_WordObj` | `Word`/`ExtendedLetter`/letter registry as mutable, shared objects |
| `M_ISS` | `iss/iss.py`, `iss/cache.py` (CachePlan) |
| `M_Np` | numpy functions used by preparateurs and sieves (`quantile`, `convolve`, `interp`, ...) |
| `M_Prep` | `preparation/{filter,transform}.py`, `iss/weighting.py`: what each preparateur computes |
| `M_PrepObj` | preparateur objects: parameters, fitted state, `fit`/`transform`/`copy`/wrappers |
| `M_Cache` | `cache.py` SharedSeedCache, coquantiles |
| `M_Sieve` | `sieving/*.py` incl. quantiles, wrappers, labels |
| `M_Fruit` | `fruit.py` Fruit/FruitSlice, `seed.py` Seed, `callback.py`: heap of slices and seeds, every public method |
| `M_Seeds` | the library's seed classes plugged into `M_Fruit` |
| `M_Dtype` | dtypes (int64, float64) along preparateurs and iterated sums |
| `M_Mem` | the preparation stage on a heap of numpy arrays: allocation, views, in-place assignments, callbacks |
| `M_Summary` | the texts of `FruitSlice.summary` and `Fruit.summary` |
| `M_Mem2` | `FruitSlice.transform`, `Fruit.transform` and the generator of iterated sums on the heap of arrays of `M_Mem`: allocation, views handed to the six callbacks, feature arrays |
| `M_Live` | the lists returned by `get_preparateurs`, `get_iss`, `get_sieves` as references into the slice; programs that call the API, take such lists and change them |
| `M_Requires` | the property `requires_fitting` of the preparateurs |
| `M_Cos` | `iss/cos.py` CosWISS (dropout, networks, batches) |

Tools: `tools/props.py` writes `properties.jsonl`, `tools/manifest.py` + `tools/claims.py` write `MANIFEST.json`,
`tools/mutate.py` applies wrong edits to a scratch copy and rebuilds, `tools/log.py` writes `seeded/LOG.jsonl`.

## Conventions of the model

* Numbers. Every numerical definition is written once over an operational class `Num T` (zero, one, +, -, *, /, <=, =,
  exp, sin, cos, of-integer; no laws). Theorems use the instance `RNum : Num R` (the standard library's
  `Reals`, with its axioms below); `QNum : Num Q` is only used to run the model (`T_*.v`, witnesses).
* A series is `list T`, a multivariate series `list (list T)` (dimension major, like numpy `(d, l)`), a dataset
  `list (list (list T))` (numpy `(n, d, l)`).
* Exceptions are values: `res A := Ok a | Err e` with `e` naming the Python exception class.
* Random choices (numpy RNG) are arguments of the model, quantified over all admissible outcomes.
* In-place updates become functions returning the new array; the aliasing that matters (copies of slices sharing
  seeds, shared caches) is modelled with explicit heap identifiers.
* Loops become structural recursion with the same state variables as the code.

## Trusted base

* Coq's kernel (8.16.1) and the faithfulness of the model to `/repo` (read, never run).
* Faithfulness is checked in one direction by `T_Conformance.v`: the model, run over exact rationals, reproduces every
  literal table and count of the repository's own tests that needs no random draw (`tests/preparation`, `tests/signature`,
  `tests/sieving`, `tests/core`: windows, dots, increments, normalisation, moving average, lead-lag, random increments with given
  kernels, the ISS tables over both semirings, general words, plans, negative words, the sieve tables with their cuts and copies, PPV/CPV, the
  features and counts of four fruits). The tests on random data check instances of C01-C04, C08, C13, C22 and C25. These
  runs are tests of the model, not proofs.
* Axioms: only those of the standard library, listed by `Print Assumptions` under each theorem in `P_*.v`:
  `ClassicalDedekindReals.sig_forall_dec`, `ClassicalDedekindReals.sig_not_dec`,
  `FunctionalExtensionality.functional_extensionality_dep` (all three come with `Reals`) and, in the theorems on trigonometric
  functions, logarithms and roots, `Classical_Prop.classic`. Theorems on words, plans, labels, pipelines, caches and word
  objects are closed under the global context.
* No axioms, functors or module types of our own. A scan of the compiled files also sees the fields of the standard
  library's own sealed modules (`RbaseSymbolsImpl`, `RinvImpl`, ssreflect's `Under_rel`); these are definitions behind a
  signature, not assumptions of the theorems.

### Modelled, and not modelled

Modelled: see the per-property list. **Not modelled**: IEEE rounding, overflow, NaN/inf (except in C06, C72-C75 and the theorems stated for any number type `Num T`; real arithmetic instead;
`fastmath` reassociation is therefore invisible; division by zero follows Coq's `x/0 = x * /0`, so theorems carry the
guard under which the code does not divide by zero); numba's unchecked out-of-range reads (theorems carry the guard
that indices are in range); float32 rounding of `alpha`; Unicode digits accepted by Python's `\d`; Python `set`
iteration order (modelled as an arbitrary permutation); memory and time; what a caller does to lists it got from `get_*()`; callbacks that raise or change the
fruit (callbacks and user functions that write to the arrays they get: C90 and C93, `transform` and the preparation stage of `fit`; elsewhere arrays are values); the state left behind by a raising `fit` of DIL and RIN; mixing SimpleWord objects into a general Word with
`multiply`; documentation and `experiments/`; dtypes other than int64 and float64, and int64 outside of C56, C83 and C84 (there: no overflow,
user functions return floats, QTC's bound is a float). Exceptions raised inside a compiled parallel loop are taken to reach
the caller. Thread scheduling of `numba.prange` is modelled in `M_Par` only (C66; memory
is sequentially consistent there, and variables assigned in a loop body are private to the iteration, as numba makes
them); all other files use the sequential loop, which C66 justifies.

## Per-property plan

* **C01** ISS over the reals is the iterated sum over strictly increasing time steps. `_total_weighted_reals_single` loop (k, tmp, result) over lists; spec = sum over the explicit list of all strictly increasing tuples (`itup`, with membership characterisation and NoDup). Induction over the word with an invariant on tmp.
* **C02** Exponentially weighted ISS over the reals. Same kernel invariants with arbitrary pair weights; exp lemmas.
* **C03** Arctic ISS is the maximum over non-decreasing time steps. `_arctic_single`, total variant; spec = attained and upper bound over non-decreasing tuples.
* **C04** Bayesian ISS is the maximum of products over non-decreasing time steps. `_bayesian_single`, same shape with products; monotonicity needs non-negativity; witness by computation.
* **C05** Cache plan enumerates every distinct word prefix exactly once. CachePlan on strings (`split(']')`, prefix set) modelled literally; spec = dedup of all prefixes.
* **C06** EXTENDED rows are the SINGLE iterated sums of their labels. `_calculate_ISS` in EXTENDED mode with row offsets; composition of C01-kernel save rows and plan.
* **C07** Batching is transparent. `_calculate_ISS` batch generator as fuelled iteration / coinductive-free step function; concatenation lemma; non-termination as: no fuel suffices.
* **C08** Simple and general words agree (Reals, Arctic). generic `Semiring._iterated_sum` slow path; product over letters permutation invariant.
* **C09** Simple and general words in the Bayesian semiring. slow path for Bayesian; strict maximum; witness over Q/R.
* **C10** Weighting is ignored for general words. dispatch in `Semiring.iterated_sums`.
* **C11** Samples are transformed independently. map over samples; permutation/append lemmas for the actual entry point.
* **C12** Causality of iterated sums. prefix (firstn) lemmas from specs.
* **C13** Quasi-shuffle identity. quasi-shuffle spec (recursive definition on words), proof by induction on tuples/last letters.
* **C14** Time-warping invariance of INC + ISS. increments with zero padding; inserted zero time step annihilates tuples containing it.
* **C15** SimpleWord parsing. parser on `list ascii` following the regex and the index loop; printer; round trip.
* **C16** SimpleWord.multiply is concatenation. string concatenation lemma for the parser; zero padding lemma for kernels.
* **C17** Extended letters are commutative. count tables invariant under permutation.
* **C18** of_weight enumerates all words of a weight exactly once. generator functions as list functions; sound, complete, no duplicates; counting recurrence.
* **C19** replace_letters keeps shape. name generator as a stream/list oracle.
* **C20** alternate_sign flips signs of alternating extended letters. string-level alternate_sign for digits, plus witness.
* **C21** Word copies and alpha. word records with alpha.
* **C22** CosWISS computes cosine weighted sums for exponents up to 4. coswiss kernel with list of (sin power, cos power, coefficient) tables; trigonometric expansion for s<=4.
* **C23** CosWISS for exponents of 5 and more. witness at s=5 via decimal digit parsing.
* **C24** CosWISS rows, labels and dropout. batch_transform index arithmetic; leaky kernel with arbitrary index sets.
* **C25** nfeatures is the exact number of feature columns. FruitSlice.transform column writes, nested ISS iteration modelled as recursion on the ISS list.
* **C26** Feature labels name the computation of their column. mixed radix decoding vs. enumeration order of the transform.
* **C27** transform requires a fit after every structural change. state machine over an inductive op type; invariant by induction over histories.
* **C28** No stale fitted sieves. column/row writes of the pipeline composed with per-sample seeds.
* **C29** Copies of slices and fruits. heap of seeds with ids; deepcopy allocates, copy shares.
* **C30** Seed copies keep their configuration. configuration records for all seeds with their `_copy`.
* **C31** SharedSeedCache is transparent. cache as association list; history induction.
* **C32** Standalone seeds: result depends only on the argument. Seed.fit/transform with cache attach/detach; history induction with exceptions.
* **C33** Callback protocol. transform emits an event trace; grammar of the trace.
* **C34** Fitting on a sample uses the cache rows of the wrong series. fit with selection list vs cache rows.
* **C35** INC preparateur. `_increments` and INC loop.
* **C36** STD preparateur. STD.
* **C37** NRM preparateur. NRM.
* **C38** MAV preparateur. MAV.
* **C39** LAG preparateur. LAG.
* **C40** Filters only keep or zero values. DIL/DOT/PDD/WIN with oracle outcomes.
* **C41** PDD with default arguments drops nothing. PDD integer arithmetic.
* **C42** CTS preparateur. CTS.
* **C43** QTC preparateur. QTC.
* **C44** DIM and NEW wrappers. wrappers over arbitrary inner functions.
* **C45** JLD projections. JLD loops.
* **C46** RIN random increments. RIN kernels.
* **C47** RPE is an isometry. RPE rotations.
* **C48** Segments partition the series. cut normalisation and bins.
* **C49** NPI, MPI, LPI, XPI, CUR semantics. increment sieves.
* **C50** MAX, MIN, END semantics. MAX/MIN/END.
* **C51** AVG and STD sieves compute the curvature. AVG/STD dispatch.
* **C52** PPV semantics. PPV.
* **C53** CPV semantics. CPV.
* **C54** Coquantiles. coquantile.
* **C55** Sieve wrappers INC and INT. sieve wrappers.
* **C56** Weighting lookups are normalised. Lookups as rows with a dtype (int64 or float64); `np.vectorize` takes the dtype of the first result of the user's function; NRM stores into an array of the same dtype. Rescaling proved for float rows, truncation (indicator of the maximum) for integer rows; `Indices(relative=False)` is the latter.
* **C57** Quantile bins of segment sieves. quantile edges.
* **C58** Arctic argmax reports a maximising chain. argmax kernel.
* **C59** Homogeneity and sign symmetry. corollaries of C01/C03 specs.
* **C60** Composition of the fit/transform pipeline. pipeline state machine.
* **C61** What a general word prints is what it computes. heap of words, letters and registry; invariant 'every letter's string describes its functions' over all histories; round trip through `split`/`int`.
* **C62** Which words share extended letters. per-call frame lemmas on the heap; freshness of copied ids; the multiply loop reads the list it appends to (no fuel suffices).
* **C63** A failing multiplication is not atomic. characterisation of the string loop by its longest good prefix.
* **C64** Registered letters are final. registry as insertion-ordered list; monotonicity over histories.
* **C65** Iterating. iteration index as attribute; loops with a body as bounded rounds, for every bound.
* **C66** Parallel loops. small-step interleaving semantics of iterations with reads and writes of the shared array; disjoint footprints (an address determines its iteration) give one final array, which is then read back as the list the rest of the model computes; termination by well-foundedness of the pool of iterations.
* **C67** FFN. tensordot/ReLU as sums over list positions; the weights are the values of an arbitrary oracle.
* **C68** RDW. parameters of the Dirichlet distribution computed in the model, the draw is an oracle; broadcasting as in numpy.
* **C69** SPE. wave broadcast over dimensions, cache sums from `M_Cache`.
* **C71** `for slc in fruit` (`M_FruitIter`): the position beside the heap of `M_Fruit`, loop bodies as arbitrary programs of API calls; induction on the rounds, `exec_opR` for what a call does to a fruit.
* **C70** `==` of preparateurs (`M_PyEq`): constructor arguments as Python numbers/callables, one `__eq__` per class, `prep_of` into `M_PrepObj`; compared with the inductive relation `alike`.
* **C72, C73** Rounding errors (`M_Float`): the kernels of `M_Semiring` run with the instance `FlNum o`, five arbitrary operations with relative error `u`; the kernels are rewritten as functions of time for any number type (`L_Float`), then the run on rounded numbers, the exact run and the exact run on absolute values are followed together (`near N y x a`: |x| <= a, |y - x| <= ((1+u)^N - 1) a). Flocq shows that rounding to 53 bits is such an arithmetic.
* **C74** Integers: the same three-run induction with `max(1, |x|)` as the dominating run.
* **C75** Finite features: `M_IEEE` is the instance of the number class for IEEE doubles (Coq.Floats.SpecFloat); `Fruit.transform` maps `nfin` (np.nan_to_num) over the result; the witness is a run of the library model on doubles. C06 is also proved for any `Num` (`L_Bits`, `L_Bits2`): a row of a kernel is the row of its prefix by rewriting only.
* **C76** Series independence: `S_Rowwise` says what it means for a preparateur, an iterated sum and a sieve to treat every series on its own; `L_Rowwise` lifts that through slices and fruits by following the evaluation relation of C25 (cache entries are functions of the input, so the entry of X[sel] is that of X at sel); `L_Rowwise2`-`L_Rowwise6` prove it for each class of the library (`S_Rowwise2` states the exceptions).
* **C77, C78** User-defined semirings (`M_Custom`): the inherited path of `Semiring.iterated_sums` with arbitrary operations. `S_Custom` defines the sum over increasing tuples in a structure without zero (`total` of the empty list has no value) and lists the laws used; the loop invariant is that the array holds these sums (`L_Custom`), the rows of EXTENDED mode are matched with `L_Plan`.
* **C79** Training: `S_Train` describes, without the heap, what is drawn, what every seed is fitted on (inductive relations that thread the random state) and all iterated sums of nested ISS; `P_Train` proves that every fit that returns follows it and composes it with C25 (`train_then_transform`).
* **C80, C81, C82** Chen's identity, time reversal, zero padding: `S_Chen` defines joined and reversed datasets, what a word object denotes, prefixes and suffixes. `L_Chen` proves the combinatorial identities for sums over increasing tuples (`fsum_app`, `fsum_rev`) and maxima over non-decreasing tuples (`max_split`, `max_flip`: a tuple of a joined series splits uniquely at the boundary); `P_Chen` transports them through the kernel theorems (C01-C03) to `ISS.transform`. The Arctic failure of zero padding is a witness.
* **C83, C84** Integer arrays: `M_Dtype` runs the preparateurs and iterated sums with a dtype attached to every array (compiled functions reject int64, `zeros_like`/`copy`/`dtype=X.dtype` keep it, stores truncate, concatenation promotes). `S_Dtype` says what an integer array is, which dtype a chain returns and when nothing fractional is stored in an integer array. Induction over wrappers and chains against the untyped model (`L_Dtype`); NRM and NEW on integers from their specifications (C37, C44) and truncation.
* **C85** Labels: `P_Labels` relates `label` (M_Seeds) with the transform (M_Sieve): the labels follow cut and q as given, the features the sorted cuts and edges, so they agree for increasing ones (uniqueness of sorted borders and quantiles) and disagree otherwise (witness via C48_cut_order).
* **C86** requires_fitting: `M_Requires` adds the property of the preparateurs; `P_Requires` classifies the preparateurs by whether `fit` changes them and proves by induction over wrappers and histories that the others raise until fitted; ISS and CosWISS from C24.
* **C87** Caches of a fruit: `P_Attach`, the library's seeds with an attached cache against C40 (WIN) and against an equivalent user-defined weighting (L1, L2).
* **C88** Fit on F, transform X: `P_PrepObj`, the object-level composition `pr_fit` then `pr_transform` for every class that learns, reduced to the kernels of C36-C46.
* **C89** Memory: `M_Mem` executes the statements of `_transform` on a heap of arrays (blocks and views); `L_Mem`-`L_Mem4` prove that each class owns what it writes to and computes the function of `M_PrepObj`, by loop invariants for the assignment loops; pipelines by induction.
* **C90** Writing user code: a frame rule (`keeps k`: blocks below k keep their contents) through all programs of `M_Mem`; callbacks as FUN stages; witnesses over the reals.
* **C91** Text of `summary()`: `M_Summary` builds the text with the same concatenations, splits and padding as the code from a *view* of the slices (class names and numbers shown). The specification is a list of lines (`slice_lines`, `fruit_lines`: headers, one line per seed, two columns filled up with blanks); proved equal to the text split at line breaks, with the widths 38/80 when the texts fit, and the numbers of the headers equal to `nfeatures()`. The layout of a slice without ISS is refuted.
* **C92** Memory of the whole `transform`: `M_Mem2` runs the nested loops (slices, ISS batches, iterated sums, sieves) on the heap; `L_Mem5` keeps a frame (which rows of which block may change) through the recursion over the ISS and relates the program to the evaluation semantics of `L_Fruit`; `C92_transform` links it to `fruit_transform` of `M_Fruit`, `C92_library` instantiates the seeds of the library, `C92_reachable` shows that reachable states meet its hypotheses about objects.
* **C93** Writing callbacks: the frame rule `keeps` of C90 through `M_Mem2`; callbacks on iterated sums and on features by the same simulation as C92 with the function of the callback applied to the value (`before_sieves`: the same seeds, the function applied first). `on_sieve`: witness that rows are handed over.
* **C94** Live lists: programs are sequences of API calls, `get_*` calls and arbitrary changes of lists held; invariant "a held list is attached until cleared" by induction on the program; `C94_ghost_sieve` compares the evaluation (`ev_slice` of `L_Fruit`) of the changed slice with that of the old one.
* **C95** Crash points of `fit`: case distinction over the places where `slice_fit` can raise; the loop over iterated sums is split at the pass that raised (`fit_ext_split`), the passes before it are those of C28; the frame `only_new` covers the pass that was stopped.
* **C96** Crash points of `add`: induction on the arguments; `C96_fruit` uses that a transform that returns has seen all its slices fitted (C27).
* **C97** Parsing of general words against a declarative grammar (S_Text): `split` at a closing character is the unique decomposition into closed parts; `int()` is inverted by induction on the digits; the fold over the pieces is a left-to-right run whose first failure decides.
* **C98** Argmax with general words: the slow path returns `extended` rows, the caller reserves n + n(n+1)/2; numpy's assignment broadcasts a single row and rejects everything else. Induction over the words of the batch, number of new prefixes from the plan (C05).
* **C99** Changing the unit: every operation the sieves use (increments, cumulative sums, sorted quantiles, bins, slices, min, max) commutes with a positive factor (L_Scale); induction over wrappers shows that the fitted state of the rescaled run is the rescaled state, hence the power per class; C59 supplies the factor of the sums. Real arithmetic; fixed thresholds excluded, with a counterexample.
* **C100** Offsets: two runs of a fruit side by side (`L_Offset`, any kit whose methods respect given relations on seeds and caches): `fit` and `transform` on related inputs end with related heaps, the same results and the same log, as long as each slice begins with a seed that maps related inputs to equal arrays. `L_Offset2` instantiates this with the library: related inputs differ by offsets, related caches have equal L1 and L2 sums. The counterexample without zero padding is computed.
* **C101** Units: the simulation of C100 with other relations (`L_Offset2` is generic in the relations on inputs and caches): related inputs differ by a positive factor and an offset per series and dimension, related caches have L1 and L2 sums that are proportional series by series, which coquantiles do not see. `C101_std_refuted`: STD adds std_eps and is no substitute for NRM.
* **C102** Time warping of features: repetition of steps is an inductive relation on rows; filters, maxima, minima, the last value and the list of positive increments respect it, and cut=[-1] is the whole row. With C14 (the iterated sums are read off at the warped times) this gives features of INC + ISS.
