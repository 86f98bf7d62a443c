#!/usr/bin/env python3
"""Single source for properties.jsonl (run: python3 tools/props.py)."""
import json, os
P = []
def p(id, title, statement, quantifier, why, anchors):
    P.append(dict(id=id, title=title, statement=statement, quantifier=quantifier,
                  why_tests_cant=why, anchors=anchors))

SZ = "Tests fix a handful of words, lengths and random arrays; the claim ranges over every word, every series length and every real-valued series."

p("C01", "ISS over the reals is the iterated sum over strictly increasing time steps",
  "For every SimpleWord w = e_1...e_k (integer exponents, negative allowed on non-zero data) and every time series X, ISS([w]).transform(X)[0, i, t] equals the sum over all strictly increasing index tuples i_1 < ... < i_k <= t of the product over j and d of X[i, d, i_j] ** e_j[d]; in particular it is 0 for t < k-1.",
  "all simple words of any length, exponents and dimension, all series of any length and dimension that contains the word's letters, all samples i, all time steps t", SZ,
  ["fruits/iss/semiring.py:Reals", "fruits/iss/semiring.py:_total_weighted_reals_single", "fruits/iss/semiring.py:_reals_single", "fruits/iss/iss.py:_calculate_ISS"])
p("C02", "Exponentially weighted ISS over the reals",
  "With a Weighting giving time transform g and word.alpha = a, the summand of i_1<...<i_k is multiplied by prod_j exp(a_j (g(i_j) - g(i_{j+1}))); with total=True additionally by exp(a_k (g(i_k) - g(t))). With all-zero g (no weighting) the weighted and unweighted kernels agree.",
  "all words, all alpha sequences of the word's length, all real lookup series g, all series, all time steps, total in {False, True}", SZ,
  ["fruits/iss/semiring.py:_reals_single", "fruits/iss/semiring.py:_total_weighted_reals_single", "fruits/iss/weighting.py:Weighting", "fruits/iss/words/word.py:Word.alpha"])
p("C03", "Arctic ISS is the maximum over non-decreasing time steps",
  "ISS([w], semiring=Arctic()).transform(X)[0, i, t] is attained by some tuple i_1 <= ... <= i_k <= t and is >= the value of every such tuple, where the value of a tuple is sum_j sum_d e_j[d] * X[i, d, i_j] (plus the weighting exponents a_j (g(i_j)-g(i_{j+1})), and a_k (g(i_k)-g(t)) if total).",
  "all simple words, all series of length >= 1, all weights, all time steps", SZ,
  ["fruits/iss/semiring.py:_arctic_single", "fruits/iss/semiring.py:_total_weighted_arctic_single", "fruits/iss/semiring.py:Arctic"])
p("C04", "Bayesian ISS is the maximum of products over non-decreasing time steps",
  "For non-negative data (positive where exponents are negative), ISS([w], semiring=Bayesian()).transform(X)[0, i, t] is attained by some tuple i_1 <= ... <= i_k <= t and bounds the (weighted) product of every such tuple. On data with negative entries the greedy running maximum is not the maximum over tuples.",
  "all simple words, all non-negative series, all weights, all time steps; plus a witness outside the documented domain", SZ,
  ["fruits/iss/semiring.py:_bayesian_single", "fruits/iss/semiring.py:_total_weighted_bayesian_single"])
p("C05", "Cache plan enumerates every distinct word prefix exactly once",
  "For ISS(words, mode=EXTENDED) the labels label(0..n_iterated_sums()-1) are pairwise distinct, every one is a non-empty prefix (in extended letters) of some given word, every non-empty prefix of every given word occurs, and they come in order of first occurrence. A label index >= n_iterated_sums() raises IndexError.",
  "all finite sequences of words whose strings are bracketed letters, including duplicates, prefixes of each other and any order", "Tests pin one list of nine words; overlap structure between words is unbounded.",
  ["fruits/iss/cache.py:CachePlan", "fruits/iss/iss.py:ISS.n_iterated_sums", "fruits/iss/iss.py:ISS._label"])
p("C06", "EXTENDED rows are the SINGLE iterated sums of their labels",
  "Row r of ISS(words, mode=EXTENDED).transform(X) equals ISS([SimpleWord(label(r))]).transform(X)[0], for every r < n_iterated_sums(), and the result has exactly n_iterated_sums() rows. In SINGLE mode there is one row per word, in the order of the words, labelled with the word and equal to the ISS of that word alone. In the Reals and Bayesian semirings the rows agree bit for bit in floating point, also with NaN and infinities; in the Arctic semiring they need not (0 * NaN of an unused dimension, witness).",
  "all lists of simple words, all rows, all series", "Links label strings, prefix plan, row offsets and the kernel's save condition for every word list; tests compare three hand-written lists.",
  ["fruits/iss/iss.py:_calculate_ISS", "fruits/iss/cache.py:CachePlan.unique_el_depth", "fruits/iss/semiring.py:Reals"])
p("C07", "Batching is transparent",
  "For every batch size b with 1 <= b <= len(words), concatenating the arrays yielded by ISS.batch_transform(X, b) gives exactly ISS.transform(X); every batch but the last covers b words. b > len(words) raises ValueError. b = 0 is accepted for a non-empty word list and never terminates (it yields empty batches forever).",
  "all word lists, all batch sizes, SINGLE and EXTENDED mode", "Tests use batch size 1 only; non-termination cannot be observed by a test.",
  ["fruits/iss/iss.py:_calculate_ISS", "fruits/iss/iss.py:ISS.batch_transform", "fruits/iss/iss.py:ISS._transform"])
p("C08", "Simple and general words agree (Reals, Arctic)",
  "Writing a SimpleWord with non-negative exponents as a general Word of DIM letters gives the same (unweighted) iterated sums for the semirings Reals and Arctic: in SINGLE mode always, in EXTENDED mode whenever both word lists have the same cache plan (the plan compares the strings of the words).",
  "all simple words with non-negative exponents, all orders of the letters inside an extended letter, all series", SZ,
  ["fruits/iss/semiring.py:Semiring._iterated_sum", "fruits/iss/semiring.py:Arctic._iterated_sum", "fruits/iss/words/creation.py:replace_letters"])
p("C09", "Simple and general words in the Bayesian semiring",
  "A user would expect C08 for Bayesian too. The code violates it: the general path sums over strictly increasing, the simple path over non-decreasing time steps. Exact statement: the general path computes the strict maximum (0 before time k-1); there is a word and a series in [0,1] on which the two results differ.",
  "all words and non-negative series (characterisation), one witness (violation)", "No test compares the two paths; the discrepancy is a property of all longer words.",
  ["fruits/iss/semiring.py:Semiring._iterated_sum", "fruits/iss/semiring.py:Bayesian"])
p("C10", "Weighting is ignored for general words",
  "For a Word that is not a SimpleWord the result of a weighted ISS equals the unweighted one for every weighting and alpha; hence the documented scaling is not applied (witness where the documented value differs).",
  "all general words, weightings and series; a witness", "Requires quantifying over all weightings.",
  ["fruits/iss/semiring.py:Semiring.iterated_sums"])
p("C11", "Samples are transformed independently",
  "ISS.transform(X)[r, i, :] depends only on X[i] (and the weighting row i): transforming a sub-dataset, a permuted dataset or a concatenation of datasets gives the corresponding sub-/permuted/concatenated results. The same holds for the modelled preparateurs and sieves after fitting.",
  "all datasets, all splits and permutations", "Universally quantified over datasets and permutations (numba.prange order included).",
  ["fruits/iss/semiring.py:Reals._iterated_sum_fast", "fruits/iss/iss.py:_calculate_ISS"])
p("C12", "Causality of iterated sums",
  "The value of an (unweighted or non-total weighted) iterated sum at time t depends only on X[:, :, :t+1]: truncating or altering the series after t does not change it.",
  "all semirings, words, series and time steps", SZ,
  ["fruits/iss/semiring.py:Reals", "fruits/iss/semiring.py:Arctic", "fruits/iss/semiring.py:Bayesian"])
p("C13", "Quasi-shuffle identity",
  "At every time step the product of two real iterated sums equals the sum of the iterated sums over all words of the quasi-shuffle product: <u>(t) * <v>(t) = sum_{w in u qsh v} <w>(t).",
  "all pairs of simple words, all series, all time steps", SZ,
  ["fruits/iss/semiring.py:Reals", "fruits/iss/words/word.py:SimpleWord"])
p("C14", "Time-warping invariance of INC + ISS",
  "Repeating (stuttering) values of the input series does not change the final value of any real iterated sum of its increments: the last entry of ISS([w]).transform(INC().transform(X)) is unchanged if any time step of X is duplicated, for words whose extended letters have non-negative exponents not all zero.",
  "all series, all positions and numbers of duplications, all words", "Quantifies over all insertions into all series.",
  ["fruits/cache.py:_increments", "fruits/preparation/transform.py:INC", "fruits/iss/semiring.py:Reals"])
p("C15", "SimpleWord parsing",
  "SimpleWord(s) succeeds exactly on strings generated by the documented grammar (with a letter other than 0 somewhere), and the parsed extended letters are the signed occurrence counts of the letters; for letters != 0 the parse of the printed form of any list of letter lists is exactly its count table. Letter 0 is accepted by the regular expression but is silently counted as a negative occurrence of the highest dimension.",
  "all strings; all lists of lists of non-zero integers", "The input language is infinite.",
  ["fruits/iss/words/word.py:SimpleWord.multiply"])
p("C16", "SimpleWord.multiply is concatenation",
  "SimpleWord(s1) followed by multiply(s2) is the same word (string, length, extended letters) as SimpleWord(s1 + s2); multiply is associative in this sense, and padding earlier extended letters with zeros does not change any iterated sum.",
  "all valid strings s1, s2", "Infinite input language, padding interacts with max dimension.",
  ["fruits/iss/words/word.py:SimpleWord.multiply", "fruits/iss/words/word.py:SimpleWord.copy"])
p("C17", "Extended letters are commutative",
  "If two simple word strings differ only by permuting letters inside extended letters then the words compare equal with ==, and == words have equal iterated sums.",
  "all words and all permutations", "Infinite family.",
  ["fruits/iss/words/word.py:SimpleWord.__eq__", "fruits/iss/words/word.py:SimpleWord.multiply"])
p("C18", "of_weight enumerates all words of a weight exactly once",
  "words.of_weight(w, dim) for w >= 1, dim >= 1 contains, up to ==, every simple word over dimensions 1..dim with exactly w letters exactly once and no others; its length satisfies N(0)=1, N(w) = sum_{i=1..w} binom(dim+i-1, i) N(w-i), in particular 2^(w-1) for dim = 1.",
  "all w >= 1, dim >= 1", "Tests check w <= 6 for dim 1 and one value for dim 2, and only lengths.",
  ["fruits/iss/words/creation.py:of_weight", "fruits/iss/words/creation.py:_partitions_of", "fruits/iss/words/creation.py:_extended_letters_by_weight"])
p("C19", "replace_letters keeps shape",
  "replace_letters(word, gen) produces a general word of the same length in which the j-th letter (in reading order) carries the j-th name produced by gen, or DIM once gen is exhausted, on the same dimension; with an always-DIM generator the result has the same iterated sums (C08). Negative occurrences are dropped.",
  "all simple words, all finite or infinite name generators", "Infinite family of words and generators.",
  ["fruits/iss/words/creation.py:replace_letters", "fruits/iss/words/letters.py:ExtendedLetter"])
p("C20", "alternate_sign flips signs of alternating extended letters",
  "For words with non-negative, not all-zero extended letters over dimensions 1..9, alternate_sign returns for each word the two words whose extended letters are negated at even resp. odd positions. For dimension >= 10 the documented behaviour fails (witness).",
  "all such word lists; a witness", "Infinite family; the failure needs a two-digit dimension no test uses.",
  ["fruits/iss/words/creation.py:alternate_sign"])
p("C21", "Word copies and alpha",
  "copy() of a word has the same extended letters, name and iterated sums but always resets alpha to all-ones (so a weighted ISS of the copy can differ: witness). Setting alpha validates its length, but multiply afterwards leaves an alpha that is too short.",
  "all words and alphas; witnesses", "Quantifies over all words.",
  ["fruits/iss/words/word.py:Word.copy", "fruits/iss/words/word.py:SimpleWord.copy", "fruits/iss/words/word.py:Word.alpha"])
p("C22", "CosWISS computes cosine weighted sums for exponents up to 4",
  "For exponent s in {0,..,4}, CosWISS([w],[f],s).transform(X)[0,i,t] is the sum over i_1<...<i_k<=t of prod X**e * prod_j cos(theta(i_{j+1})-theta(i_j))**s, with the extra factor cos(theta(t)-theta(i_k))**s if total_weighting, theta(t)=pi*t/(f*(N-1)).",
  "all words, series, frequencies, time steps, exponents 0..4", SZ,
  ["fruits/iss/cos.py:_coswiss_single", "fruits/iss/cos.py:CosWISS._get_weightings"])
p("C23", "CosWISS for exponents of 5 and more",
  "The documented formula is stated for every exponent; the code violates it from exponent 5 on, because binomial coefficients are read back as a single decimal digit. Exact witness at exponent 5.",
  "witness; characterisation of when the coefficient table is right", "Tests stop at exponent 4.",
  ["fruits/iss/cos.py:CosWISS._get_weightings"])
p("C24", "CosWISS rows, labels and dropout",
  "CosWISS.transform returns len(freqs)*len(words) rows, row r belongs to word r div len(freqs) and frequency r mod len(freqs), exactly as label(r) says, for every number of frequencies; batches concatenate to the full result for every batch size. With dropout, the sum ranges over index tuples that avoid the dropped positions of each letter.",
  "all words, frequency lists, batch sizes, dropout index sets", "Unbounded configurations; random dropout is quantified over all outcomes.",
  ["fruits/iss/cos.py:CosWISS.batch_transform", "fruits/iss/cos.py:CosWISS._label", "fruits/iss/cos.py:_leaky_coswiss_single"])
p("C25", "nfeatures is the exact number of feature columns",
  "For every fitted FruitSlice/Fruit whose sieves return nfeatures() columns, transform writes every one of its nfeatures() columns exactly once (no column is left at its initial zero, none overwritten, none out of range); nested ISS produce exactly niteratedsums() iterated sums; a fruit's result is the concatenation of its slices' results.",
  "all slices with any number of ISS and sieves, all fruits, all datasets", "Unbounded nesting and configurations.",
  ["fruits/fruit.py:FruitSlice.transform", "fruits/fruit.py:FruitSlice.nfeatures", "fruits/fruit.py:FruitSlice._iterate_iss", "fruits/fruit.py:Fruit.transform"])
p("C26", "Feature labels name the computation of their column",
  "Fruit.label(c) for 0 <= c < nfeatures() returns the label assembled from the preparateurs, the ISS words and the sieve feature that actually produced column c; for level 'iterated sums' likewise. Negative c raises RuntimeError, c >= nfeatures() raises IndexError.",
  "all fruits, slices, nested ISS configurations and indices", "Mixed-radix index decoding over unbounded configurations.",
  ["fruits/fruit.py:Fruit.label", "fruits/fruit.py:FruitSlice.label"])
p("C27", "transform requires a fit after every structural change",
  "For every history of API calls (cut, copycut, add, switch_slice, slice add/clear, fit, transform): Fruit.transform succeeds only if each slice has been fitted since its last structural change and no add/cut was made through the fruit since the last fit; otherwise it raises RuntimeError. fit on a slice without ISS or without sieves raises RuntimeError.",
  "all finite histories of API calls", "Histories are unbounded.",
  ["fruits/fruit.py:Fruit", "fruits/fruit.py:FruitSlice"])
p("C28", "No stale fitted sieves",
  "After any history of slice operations ending in a successful fit, the per-iterated-sum sieve list used by transform was either created by that very fit for the current sieves and current number of iterated sums, or is empty and the current (no-fit) sieves are used.",
  "all histories of slice operations", "Histories are unbounded; the early return in fit skips the reset.",
  ["fruits/fruit.py:FruitSlice.fit", "fruits/fruit.py:FruitSlice.transform"])
p("C29", "Copies of slices and fruits",
  "deepcopy of a fruit never shares preparateurs, ISS or sieves with the original, so any later history of fits on either side leaves the other's transform results unchanged; copy shares them, so fitting the copy can change the original's results (witness) and loses fit_sample_size (witness).",
  "all fruits and all later histories; witnesses", "Aliasing over unbounded histories.",
  ["fruits/fruit.py:Fruit.deepcopy", "fruits/fruit.py:FruitSlice.deepcopy", "fruits/fruit.py:FruitSlice.copy"])
p("C30", "Seed copies keep their configuration",
  "copy() of a seed is expected to have the same configuration. It holds for INC, NRM, MAV, LAG, DOT, PDD, DIL, WIN, CTS, QTC, JLD, RIN, RPE, SPE, FFN, RDW, DIM, NEW, PPV, CPV and the sieve wrappers; it fails for STD (std_eps reset) and for all segment/increment sieves (coquantile_norm reset to L2), so that adding a sieve that needs fitting changes the features of other sieves in the slice (witness).",
  "all configurations of all seeds; witnesses", "All constructor arguments of all classes.",
  ["fruits/sieving/segment.py:SegmentSieve._copy", "fruits/sieving/increment.py:IncrementSieve._copy", "fruits/preparation/transform.py:STD._copy", "fruits/fruit.py:FruitSlice.fit"])
p("C31", "SharedSeedCache is transparent",
  "For a cache created with an input, every history of get calls returns for each (type, key) exactly what a fresh computation on that input returns, whatever X is passed; unknown keys raise KeyError. For a cache without input the first X wins: a later get with a different X returns the stale value (witness).",
  "all histories of get calls, all inputs", "Histories are unbounded.",
  ["fruits/cache.py:SharedSeedCache.get"])
p("C32", "Standalone seeds: result depends only on the argument",
  "For a seed never attached to a fruit whose calls never raise, every history of fit/transform calls leaves no cache behind and transform(X) uses coquantiles/lookups of X itself. After a call that raises, or after use inside a fruit, the cache stays and later transforms use coquantiles of the old data (witnesses).",
  "all histories of calls; witnesses", "Histories are unbounded and include exceptions.",
  ["fruits/seed.py:Seed.fit", "fruits/seed.py:Seed.transform"])
p("C33", "Callback protocol",
  "During Fruit.transform each callback receives, in order per slice: on_next_slice, one on_preparateur per preparateur, on_preparation_end, then per iterated sum one on_iterated_sum followed by one on_sieve per sieve, then on_sieving_end. The array passed to on_sieve is expected to be the sieve's feature columns; the code passes rows k:k+nf of the feature matrix instead (witness).",
  "all fruits and datasets; a witness", "Unbounded configurations.",
  ["fruits/fruit.py:FruitSlice.transform", "fruits/callback.py:AbstractCallback"])
p("C34", "Fitting on a sample uses the cache rows of the wrong series",
  "FruitSlice.fit selects k of the series at random but hands its seeds a cache built from all series, and seeds index that cache by position in the sample. Hence two fits on the same data with caches that agree on their first k series have the same outcome and lead to the same features, whatever series were selected; fit(X) is the fit with the cache of X[:k]. It is the fit with the cache of the sample itself if the indices drawn are 0,1,...,k-1 in this order, and in general not (witness: with two series and the second one selected, WIN cuts the window of the first).",
  "all histories of library seeds, datasets, caches and selections; a witness", "Depends on every random selection.",
  ["fruits/fruit.py:FruitSlice._select_fit_sample", "fruits/fruit.py:FruitSlice.fit", "fruits/preparation/filter.py:WIN", "fruits/iss/weighting.py:L1"])
p("C35", "INC preparateur",
  "INC(shift=s, depth=n).transform: with zero padding every depth sets the first s entries to 0 and entry t to x_t - x_{t-s}; it is invariant under adding a constant and linear. With zero_padding=False, n-fold s-strided cumulative summation of the result restores X exactly. shift=0 raises; float or callable shifts with zero_padding=False raise TypeError.",
  "all series, shifts >= 1, depths >= 1", SZ,
  ["fruits/preparation/transform.py:INC", "fruits/cache.py:_increments"])
p("C36", "STD preparateur",
  "STD(separately=True): every output dimension has mean 0, and variance (sigma/(sigma+eps))^2 (so < 1, and 0 for constant input); result is unchanged by adding constants to the input. STD(separately=False) is an affine map determined by the fitted mean/std, and raises RuntimeError before fit.",
  "all series, all eps > 0", SZ, ["fruits/preparation/transform.py:STD"])
p("C37", "NRM preparateur",
  "NRM maps every dimension into [0,1]; attains 0 and 1 if the dimension is not constant and is all 0 otherwise; it is invariant under positive affine rescaling and idempotent on non-constant data, order preserving. With scale_dim=True the same holds over all dimensions jointly, preserving the ratio of magnitudes.",
  "all series, both modes", SZ, ["fruits/preparation/transform.py:NRM"])
p("C38", "MAV preparateur",
  "MAV(w): entries t >= w-1 are the mean of x_{t-w+1..t}, earlier ones 0, hence bounded by min and max of the input there; w = 1 is the identity. The documented width=-1 (average over dimensions) never works: fit+transform raises RuntimeError for every input.",
  "all series and widths", SZ, ["fruits/preparation/transform.py:MAV"])
p("C39", "LAG preparateur",
  "LAG maps a series of d dimensions and length n to 2d dimensions and length 2n-1 with out[2i][2t] = out[2i+1][2t] = x_i[t], out[2i][2t+1] = x_i[t+1], out[2i+1][2t+1] = x_i[t]; no entry is left unset.",
  "all series with n >= 1", SZ, ["fruits/preparation/transform.py:LAG"])
p("C40", "Filters only keep or zero values",
  "For every outcome of the random choices, DIL, DOT, PDD and WIN return an array of the same shape in which each entry is either the input entry or 0; DIL's strips stay inside the series and do not overlap; DOT keeps exactly the positions of the Python slice first::n for any integers (negative first counts from the end, negative n walks down, n = 0 raises ValueError); PDD's strips start at the integer parts of equidistant points and together cover at most max(int(proportion*l), 1) time steps; WIN keeps exactly the window of its coquantiles.",
  "all series, parameters and random outcomes", "Quantifies over all random outcomes.",
  ["fruits/preparation/filter.py:DIL", "fruits/preparation/filter.py:DOT", "fruits/preparation/filter.py:PDD", "fruits/preparation/filter.py:WIN"])
p("C41", "PDD with default arguments drops nothing",
  "PDD is documented to drop `proportion` of each series. With the default arguments (density 0.1, proportion 0.5) it is the identity for every series of length >= 2.",
  "all series of length >= 2", "Universally quantified failure.",
  ["fruits/preparation/filter.py:PDD"])
p("C42", "CTS preparateur",
  "CTS(s): y[t] = x[t+s] for t < l-s and y[t] = x[l-1] otherwise (all entries the last value if s >= l); shifts compose additively; pseudo shift zeroes exactly the first s entries. s = 0 raises for series longer than one.",
  "all series and s >= 1", SZ, ["fruits/preparation/transform.py:CTS"])
p("C43", "QTC preparateur",
  "QTC returns min(q, x) (max(q, x) if lower) entrywise for the fitted quantile, is idempotent and monotone, and with bound b replaces exactly the entries beyond the quantile by b.",
  "all series, all quantile values, all bounds", SZ, ["fruits/preparation/transform.py:QTC"])
p("C44", "DIM and NEW wrappers",
  "NEW(p) keeps all input dimensions unchanged in front and appends p's output; NEW() duplicates. DIM(p, dims) returns the untouched dimensions in original order followed by p applied to the selected ones.",
  "all series, inner preparateurs and dimension selections", "Quantifies over all inner preparateurs.",
  ["fruits/preparation/wrapper.py:DIM", "fruits/preparation/wrapper.py:NEW"])
p("C45", "JLD projections",
  "Without bias JLD is linear and every output dimension is the weighted sum of its assigned input dimensions; with distribute=True the input dimensions are split into out_dim groups whose sizes differ by at most one and use each input exactly once. With bias the documented 'adds a bias to each projected dimension' fails: the bias is added once per input dimension of the group (witness).",
  "all dimensions, kernels and permutations", "Quantifies over all random kernels.",
  ["fruits/preparation/transform.py:JLD"])
p("C46", "RIN random increments",
  "With a constant kernel RIN computes y_t = x_t - sum_l k_l x_{t-w+l} for t >= w and 0 before (with adaptive_width the zero-padded convolution for every t). With random kernels the x_t term is taken from dimension j although the convolution uses dimension dims[j], so the documented formula fails for non-identity dims (witness). force_sum_one kernels sum to exactly one but may leave [-1,1] (witness). fit raises ValueError exactly if out_dim exceeds the input dimension; otherwise there are out_dim outputs (the input dimension if out_dim <= 0), grouping every input exactly once into groups whose sizes differ by at most one. transform before fit raises RuntimeError.",
  "all series and kernels; witnesses", "Quantifies over all kernels.",
  ["fruits/preparation/transform.py:RIN"])
p("C47", "RPE is an isometry",
  "RPE preserves the Euclidean norm of every time step and the inner product of two series at every time step; input with other than two dimensions raises ValueError.",
  "all two-dimensional series, frequencies, lengths", SZ, ["fruits/preparation/transform.py:RPE"])
p("C48", "Segments partition the series",
  "Segment sieves evaluate consecutive, disjoint segments [cut_j, cut_{j+1}) of the sorted cuts: for cuts in range the features of a list of cuts are independent of the order in which cuts are given, and NPI counts over adjacent segments and adjacent quantile bins add up to the count over the union.",
  "all cut lists in range, all quantile lists, all series", "Unbounded cut and quantile lists.",
  ["fruits/sieving/segment.py:SegmentSieve._get_transformed_cuts", "fruits/sieving/increment.py:NPI"])
p("C49", "NPI, MPI, LPI, XPI, CUR semantics",
  "On each segment and quantile bin: NPI is the number of increments in the bin, MPI their mean (0 if none), LPI the length of the longest run of consecutive such positions, XPI the mean position relative to the segment start (0 if none), CUR the sum of squares of second order increments in the bin (>= 0).",
  "all series, segments and bins", SZ, ["fruits/sieving/increment.py", "fruits/sieving/segment.py:CUR"])
p("C50", "MAX, MIN, END semantics",
  "MAX/MIN return an entry of the segment within the bin that bounds all others (0 for an empty segment, ValueError if the segment is non-empty but the bin is); END returns the entry just before each cut. END's column count equals nfeatures() iff exactly two quantiles are configured (witness otherwise), and cut 0 yields the last value.",
  "all series, cuts and bins; witnesses", SZ, ["fruits/sieving/segment.py:MAX", "fruits/sieving/segment.py:MIN", "fruits/sieving/segment.py:END"])
p("C51", "AVG and STD sieves compute the curvature",
  "The sieves AVG and STD are documented to return mean and standard deviation; for every input they return exactly the CUR features instead (witness where the mean differs).",
  "all series, cuts and quantiles; a witness", "Universally quantified failure; no test covers AVG/STD.",
  ["fruits/sieving/segment.py:AVG", "fruits/sieving/segment.py:STD"])
p("C52", "PPV semantics",
  "PPV features lie in [0,1]; for a single threshold it is the fraction of entries >= q, antitone in q; with segments the features are the fractions in [q_{i-1}, q_i) and sum to the fraction in [q_0, q_n). Because thresholds are put in a set before being zipped with `constant`, a threshold can be paired with another one's flag (witness).",
  "all series and threshold lists; a witness", SZ, ["fruits/sieving/implicit.py:PPV"])
p("C53", "CPV semantics",
  "CPV is documented as the (normalised) number of maximal strips of entries >= q. The code counts only strips that do not start at index 0; with that reading the value is exact and lies in [0,1] for every series (witness for the documented reading).",
  "all series and thresholds; a witness", SZ, ["fruits/sieving/implicit.py:CPV"])
p("C54", "Coquantiles",
  "The L1/L2 variation series starts at 0 and is non-decreasing; for q in [0,1] the coquantile c satisfies 1 <= c <= l, exactly the first c entries of the variation are <= q * total, it is monotone in q, and q = 1.0 gives l.",
  "all series of length >= 1 and all q in [0,1]", SZ, ["fruits/cache.py:_coquantile", "fruits/cache.py:_L1_sum", "fruits/cache.py:_L2_sum"])
p("C55", "Sieve wrappers INC and INT",
  "INT evaluates the wrapped sieve on the cumulative sum; INC on the increments; INC after INT restores the input except its first entry. The documented depth of INC has no effect beyond 1 (equality for all depths >= 1, and witness against the documentation); depth 0 is the identity.",
  "all sieves, series, depths, shifts", SZ, ["fruits/sieving/wrapper.py:INC", "fruits/sieving/wrapper.py:INT"])
p("C56", "Weighting lookups are normalised",
  "Indices, L1, L2 and Plateaus lookups are the linear rescaling of the (transformed) time to [0, scale] for every series, provided the array of times is a float array (relative=True or a transform that returns floats): the untransformed Indices(relative=True), L1 and L2 lookups are non-decreasing in time and reach both ends if not constant; Plateaus takes at most n distinct values and is non-decreasing (non-increasing if reversed). n <= 1 raises ValueError. If the times are integers the normalised values are truncated to integers: Indices(relative=False) gives 0 at every time step but the last one, where it gives scale, for every dataset with at least two time steps, so it differs from relative=True from three time steps on; likewise for a transform whose first result is an int.",
  "all series, scales >= 0, plateaus counts", SZ, ["fruits/iss/weighting.py"])
p("C57", "Quantile bins of segment sieves",
  "After fit on a sieve that requires fitting the bin edges are sorted, so bins are disjoint and each value falls into at most one bin; for sieves without fitting the edges are used in the order given, so an unsorted q yields empty bins (witness). transform of an unfitted sieve that requires fitting fails.",
  "all quantile lists; a witness", "All configurations.",
  ["fruits/sieving/segment.py:SegmentSieve._fit", "fruits/sieving/segment.py:SegmentSieve._get_unfitted_quantiles"])
p("C58", "Arctic argmax reports a maximising chain",
  "For Arctic(argmax=True) without weighting, at the last time step the reported positions of each prefix satisfy p_1 <= ... <= p_k and the value row equals the sum of the letters at these positions, i.e. they attain the maximum. At earlier time steps the reported positions need not (witness), nor with a weighting (witness).",
  "all simple words without all-zero letters, all series; witnesses", SZ,
  ["fruits/iss/semiring.py:_arctic_argmax_single", "fruits/iss/iss.py:_calculate_ISS"])
p("C59", "Homogeneity and sign symmetry",
  "Scaling dimension d of the data by c != 0 scales the real iterated sum of w by c to the total exponent of d in w; in the Arctic semiring scaling all data by c > 0 scales the result by c; negating all exponents of a word equals inverting (Reals) or negating (Arctic) the data.",
  "all words, series and scalars", SZ, ["fruits/iss/semiring.py"])
p("C60", "Composition of the fit/transform pipeline",
  "Fruit.fit_transform equals fit followed by transform; repeated transform calls on the same fitted fruit and data return equal results (transform does not change the fitted state), and results for a sub-list of slices are the corresponding column blocks.",
  "all fruits, datasets and numbers of repetitions", "Histories are unbounded.",
  ["fruits/fruit.py:Fruit.transform", "fruits/fruit.py:Fruit.fit_transform"])
p("C61", "What a general word prints is what it computes, and can be read back",
  "At any moment, str(w) of a general Word lists (name, dimension) pairs of registered letters and the letters w computes are exactly those. If no registered name contains '(' , ')' or ']', Word(str(w)) succeeds and has the same letters and string as w; two words with equal strings (at any two moments) compute the same letters, so the string is a sound key for the prefix cache. The reader is lenient: text after the last ']' is ignored and the first character of each group is skipped, whatever it is.",
  "all histories of calls on words, extended letters and the letter registry; all words and strings", "Histories and strings are unbounded; tests parse a few literals.",
  ["fruits/iss/words/word.py:Word", "fruits/iss/words/letters.py:ExtendedLetter", "fruits/iss/words/letters.py:letter"])
p("C62", "Which words share extended letters",
  "A call changes string and letters of a word only if it multiplies that word or appends to one of its extended letters. copy() gives a word with equal letters, none shared with any other word, without the alpha values, and it stays as it is as long as it is not itself changed. multiply(Word) shares the extended letters: from then on the second part of the product always equals the other word, whatever is appended. w.multiply(w) never returns for a non-empty word; w.multiply(v) with another word always returns.",
  "all histories of calls before and after, all words", "Aliasing and non-termination over unbounded histories.",
  ["fruits/iss/words/word.py:Word.multiply", "fruits/iss/words/word.py:Word.copy", "fruits/iss/words/letters.py:ExtendedLetter.copy"])
p("C63", "A multiplication with a malformed string is not atomic",
  "If w.multiply(s) raises for a general word w, then s = p + g + rest where p and g consist of ']'-terminated groups (g a single one), w is left exactly as after w.multiply(p), and w.multiply(g) raises the same exception and changes nothing. A raising constructor Word(s) leaves no word and changes none.",
  "all words, all strings, all states", "All strings and all failure positions.",
  ["fruits/iss/words/word.py:Word.multiply", "fruits/iss/words/letters.py:ExtendedLetter._append_from_string"])
p("C64", "Registered letters are final",
  "Registering a letter under a new name makes it available under that name, appended to the names known so far, and changes no existing word; registering a known name raises RuntimeError and changes nothing; a name, once registered (DIM and ABS from the start), means the same letter forever, and the names are pairwise distinct. append(name, dim) with an unknown name raises RuntimeError and leaves the extended letter unchanged, with a known one adds exactly that letter at the end.",
  "all histories", "A global registry over unbounded histories.",
  ["fruits/iss/words/letters.py:letter", "fruits/iss/words/letters.py:_log", "fruits/iss/words/letters.py:_get", "fruits/iss/words/letters.py:ExtendedLetter.append"])
p("C65", "Iterating over words and extended letters",
  "A for loop over a word or extended letter whose body leaves the object alone sees every item once and in order, whatever iterations were started or abandoned before. The position is an attribute of the object: a complete loop over the same object inside the body ends the outer loop after its first round. A loop over a non-empty word that multiplies the word with each letter it sees never ends.",
  "all words, letters, iteration states and numbers of rounds", "All iteration states and lengths; non-termination.",
  ["fruits/iss/words/word.py:Word.__iter__", "fruits/iss/words/word.py:Word.__next__", "fruits/iss/words/letters.py:ExtendedLetter.__next__"])
p("C66", "Parallel loops do not depend on the schedule",
  "Every parallel loop of the library (iterated sums over all semirings, cosine weighted sums, MAV, RIN, JLD and RPE, all segment and increment sieves, coquantiles and L1/L2 sums) terminates and leaves the same result array under every interleaving of its iterations, down to single reads and writes of that array: the one the sequential loop computes, which is the one all other properties speak about.",
  "all inputs, all numbers of threads, all chunkings, all interleavings of the reads and writes of the iterations", "The number of interleavings is exponential and the scheduler of the machine under test picks one.",
  ["fruits/iss/semiring.py:Reals._iterated_sum_fast", "fruits/iss/semiring.py:Arctic._iterated_sum_fast", "fruits/iss/semiring.py:Bayesian._iterated_sum_fast", "fruits/iss/cos.py:_coswiss", "fruits/preparation/transform.py:JLD._backend", "fruits/preparation/transform.py:RIN._backend", "fruits/preparation/transform.py:MAV._backend", "fruits/preparation/transform.py:RPE._backend", "fruits/sieving/segment.py:MAX._backend", "fruits/sieving/increment.py:NPI._backend", "fruits/cache.py:_coquantile"])

p("C67", "FFN is a two layer ReLU network applied at every time step",
  "After a fit, FFN(d_out, d_hidden, center, relu_out).transform(X) has shape (n, d_out, l) and output o at time t of series i is the network with the drawn weights W1, b, W2 applied to the vector of that time step (its dimensions centred over time if center is set), ReLU on the hidden units and, with relu_out, on the output. Without centring equal time steps give equal outputs, whatever the rest of the data; with centring the result is invariant under shifting every dimension of every series. fit draws weights of the announced sizes; transform raises RuntimeError before fit and ValueError for series of another dimension.",
  "all weights a generator may draw, all datasets, all hidden sizes", "Random weights and unbounded shapes.",
  ["fruits/preparation/transform.py:FFN"])
p("C68", "RDW raises every dimension to a fixed random exponent",
  "transform gives x ** w_j for every value of dimension j. Exponents drawn with dist='uniform' sum to one. With dist='dirichlet' the parameters handed to the generator are positive: the maximum over time of the mean over the training series of the absolute values, divided by the largest such number, plus 1e-5 everywhere if some dimension is zero; a training set of zeros makes fit raise ValueError, every other one does not. (Documented: 'proportional to the maximal absolute value of each dimension'; refuted.)",
  "all datasets, all draws of the generator", "Random exponents, all training sets.",
  ["fruits/preparation/transform.py:RDW"])
p("C69", "SPE adds or multiplies one wave to all dimensions",
  "SPE(freq, operation, function, step_transform, max_length).transform(X) adds to / multiplies every dimension of series i with f(s_t / T**freq), f the sine by default, where s_t = t counted from 0 and T the length (or max_length); with step_transform 'L1'/'L2', s_t is the L1/L2 variation up to t of the first dimension of series i in the shared cache and T its final value. (Documented: t = 1, ..., T; the default embedding therefore sets the first value of every series to 0.) Another operation raises ValueError, another step_transform KeyError.",
  "all series, frequencies, functions and lengths", "All series and wave functions.",
  ["fruits/preparation/transform.py:SPE"])
p("C70", "What == says about two preparateurs",
  "a == b is true exactly when both are of the same class and their constructor arguments are equal (numbers by value, callables by identity), STD's epsilon left out. A true comparison is true the other way round and true comparisons compose. FFN, FUN, DIL, DIM and NEW equal nothing, not even themselves; every other preparateur equals its copy, except a RIN with a kernel of several entries, where comparing raises ValueError. WIN, DOT and PDD compared with another class raise TypeError; nothing else raises. Equal preparateurs transform alike if STD's epsilons agree and INC shifts are not an int against a float; the two exceptions are real (INC(1) == INC(1.0) but they transform differently).",
  "all preparateurs with all constructor arguments", "All pairs (triples) of objects and all arguments.",
  ["fruits/preparation/transform.py:INC.__eq__", "fruits/preparation/transform.py:STD.__eq__", "fruits/preparation/transform.py:RIN.__eq__", "fruits/preparation/filter.py:WIN.__eq__", "fruits/preparation/filter.py:DOT.__eq__", "fruits/preparation/filter.py:PDD.__eq__", "fruits/preparation/abstract.py:Preparateur.__eq__"])
p("C71", "Iterating over a fruit",
  "A for loop over a fruit terminates and sees every slice once and in order, whatever iterations were started or abandoned before, as long as the body does not cut the fruit or iterate over it again: the body may fit, transform, copy, switch, add, change the slices and loop over other fruits. A round that raises ends the loop with its exception. fruit[k] is the k-th slice of the loop, negative indices count from the end, others raise IndexError. The position is an attribute of the fruit: a complete loop over the same fruit inside the body ends the outer loop after its first round, and a loop over a fruit with at least one slice that cuts it in every round never ends.",
  "all reachable states, all bodies made of API calls, all numbers of rounds", "All histories, all bodies; non-termination.",
  ["fruits/fruit.py:Fruit.__iter__", "fruits/fruit.py:Fruit.__next__", "fruits/fruit.py:Fruit.__getitem__"])
p("C72", "Rounding errors of iterated sums",
  "If every elementary operation of the machine has a relative error of at most u, then the value that ISS.transform (Reals, SINGLE mode, no weighting) computes for a word at time t differs from the iterated sum by at most ((1+u)^N - 1) times the sum of the absolute values of its terms, where N = (sum of the absolute exponents) + (number of extended letters) * (t + 4); this is a relative error if the data are non-negative. (1+u)^N - 1 <= N u / (1 - N u) if N u < 1. Rounding to nearest with 53 bits has u = 2^-53 (without overflow and underflow).",
  "all datasets, words and time steps, all arithmetics with relative error u", "An error bound over all inputs cannot be observed on some.",
  ["fruits/iss/semiring.py:_total_weighted_reals_single", "fruits/iss/iss.py:ISS.transform"])
p("C73", "Rounding errors of Arctic and Bayesian sums do not grow with the length of the series",
  "In the same arithmetics Arctic sums are off by at most (1+u)^N - 1 times the largest sum of absolute values, N = 1 + sum over the extended letters of (length of the count table + 2), and Bayesian sums of non-negative data have relative error at most (1+u)^N - 1, N = (sum of absolute exponents) + 4 * (number of extended letters): neither depends on the length of the series.",
  "all datasets, words and time steps, all arithmetics with relative error u", "An error bound over all inputs cannot be observed on some.",
  ["fruits/iss/semiring.py:_total_weighted_arctic_single", "fruits/iss/semiring.py:_total_weighted_bayesian_single"])
p("C74", "Iterated sums of integers are exact",
  "If the data are integers, the exponents are not negative and the iterated sum of the values max(1, |x|) does not exceed 2^53 (Arctic: the largest sum of absolute values, Bayesian: the largest product of max(1, |x|)), then the float64 result of ISS.transform without weighting is the exact value; the bound is needed.",
  "all integer datasets, words and time steps", "All integers below the bound.",
  ["fruits/iss/semiring.py:_total_weighted_reals_single", "fruits/iss/semiring.py:_total_weighted_arctic_single", "fruits/iss/semiring.py:_total_weighted_bayesian_single"])
p("C75", "Features of a fruit are finite floating point numbers",
  "In IEEE double precision, Fruit.transform and fit_transform never return NaN or an infinity, whatever the seeds, the history and the data (NaN and infinities included): NaN features become 0, infinities become the largest double of that sign, finite features are those of the slices unchanged. FruitSlice.transform does return NaN and infinities (witness), so an overflow or a NaN in the data is reported as an ordinary number by the fruit.",
  "all states, fruits and datasets of doubles", "All datasets, seeds and histories.",
  ["fruits/fruit.py:Fruit.transform", "fruits/fruit.py:Fruit.fit_transform"])
p("C76", "Series are transformed independently of each other",
  "If Fruit.transform(X) succeeds, then for every non-empty list of series indices sel (with repetitions, in any order) Fruit.transform(X[sel]) in the same state succeeds and returns transform(X)[sel], whatever the number of series, the order in which the seeds were built and fitted and the callbacks: transforming in chunks, one at a time or permuted gives the same features. This holds for every preparateur, iterated sum and sieve that treats series on its own, and all those of the library do, provided functions supplied by the user (FUN, custom weightings) do and objects wrapped by DIM, NEW, INC and INT do not read the shared cache. It fails for a FUN that looks at several series (witness).",
  "all histories, datasets, index lists, library seeds", "All datasets and all sub-selections, in all states.",
  ["fruits/fruit.py:Fruit.transform", "fruits/fruit.py:FruitSlice.transform", "fruits/cache.py:SharedSeedCache.get", "fruits/seed.py:Seed"])
p("C77", "User-defined semirings compute iterated sums",
  "For a subclass of Semiring that defines only the three abstract methods (elementwise), ISS.transform returns at time t the sum, over all strictly increasing positions up to t, of the products of the letters, in the user's addition and multiplication, and the number 0 where there is no such choice of positions (t + 1 < number of extended letters) - for every associative addition whose running sums the cumulative operation computes and every associative multiplication with unit that distributes over it; commutativity and a zero are not needed. In SINGLE mode there is one row per word, in EXTENDED mode one per distinct prefix, labelled by it; the batches of batch_transform concatenate to the result of transform.",
  "all semirings satisfying the laws, words, datasets and batch sizes", "All algebraic structures a user may define, all words and datasets.",
  ["fruits/iss/semiring.py:Semiring", "fruits/iss/semiring.py:Semiring.iterated_sums", "fruits/iss/semiring.py:Semiring._iterated_sum", "fruits/iss/words/creation.py:replace_letters", "fruits/iss/iss.py:ISS"])
p("C78", "What user-defined semirings silently ignore",
  "For such a subclass a weighting has no effect on the result (only its exceptions are seen, and a NotImplementedError raised by it is not), although it appears in the label, and negative exponents of simple words are treated as 0. A subclass with the operations of Reals agrees with Reals without weighting and negative exponents and differs from it with a weighting (witness); one with the operations of Arctic differs from Arctic (strictly increasing instead of non-decreasing positions, witness).",
  "all semirings, weightings, words and datasets", "All weightings and words.",
  ["fruits/iss/semiring.py:Semiring.iterated_sums", "fruits/iss/words/creation.py:replace_letters"])
p("C79", "What a fit trains on and what transform then uses",
  "A fit of a slice that returns draws its sample (fit_sample_size 1: one random series; otherwise max(int(fit_sample_size * n), 1) series without repetition), fits each preparateur on what the preparateurs before it, already fitted, make of the sample, fits each ISS that requires it on the prepared sample and, if some sieve requires fitting, gives every iterated sum of the prepared sample its own copies of all sieves, fitted on it; the slice's own sieves are not fitted, and all seeds see the cache of the whole input. A later transform(X2) prepares X2 with the preparateurs as fitted and computes feature r of sieve j for iterated sum k with the copy that was fitted on iterated sum k of the training sample. If no sample can be drawn (no series, or more asked for than there are), fit raises ValueError and nothing has changed. No seed object may be added twice: one preparateur object added twice is used at both places with what it learned last (witness).",
  "all histories, slices, datasets, caches, random draws and seeds", "All seeds, data, random draws and histories.",
  ["fruits/fruit.py:FruitSlice.fit", "fruits/fruit.py:FruitSlice._select_fit_sample", "fruits/fruit.py:FruitSlice._iterate_iss", "fruits/fruit.py:FruitSlice.transform"])

p("C80", "Chen's identity",
  "The iterated sum of a word over two series one after the other is, at every time of the second part, the sum over all ways to cut the word in two of the iterated sum of the prefix at the end of the first part times that of the suffix over the second part (the empty word counts 1); over the Arctic and the Bayesian semiring (there for non-negative data) the maximum over the cuts of the sum and of the product. So the prefixes' last values are all that a continuation needs of the past.",
  "all words without the letter 0, all pairs of datasets with the same dimensions, all times", "All words, data and cut points.",
  ["fruits/iss/semiring.py:Reals", "fruits/iss/semiring.py:Arctic", "fruits/iss/semiring.py:Bayesian", "fruits/iss/iss.py:ISS.transform"])
p("C81", "Time reversal",
  "The last value of the iterated sum of a word over a series is the last value of the word with its extended letters in reverse order over the series read backwards, over Reals, Arctic and (for non-negative data) Bayesian.",
  "all words without the letter 0 and all datasets", "All words and datasets.",
  ["fruits/iss/semiring.py:Reals", "fruits/iss/semiring.py:Arctic", "fruits/iss/semiring.py:Bayesian", "fruits/iss/iss.py:ISS.transform"])
p("C82", "Zero padding",
  "Over Reals and for words without negative letters, time steps that are zero in all dimensions do not contribute: in front of a series they delay the iterated sums (0 up to there), at the end they repeat the last value. This fails over Arctic, where 0 is data like any other (witness).",
  "all words without negative letters, all datasets, any number of padded steps", "All words, datasets and padding lengths.",
  ["fruits/iss/semiring.py:Reals", "fruits/iss/iss.py:ISS.transform"])

p("C83", "Integer datasets are computed as floats or rejected",
  "Calling preparateurs and iterated sums with an array of dtype int64 never silently changes a number, as long as no fractional number has to be stored in an integer array (C84): the chain of preparateurs of a slice either raises a TypeError or gives exactly the result it gives for the same numbers as floats, with a dtype that can be read off the chain; iterated sums are those of the float array or end with a TypeError. INC, MAV, RIN, JLD, and WIN and SPE with a step whose cache holds integers always raise; no simple word and no CosWISS can be computed from an integer array.",
  "all preparateurs (nested in DIM and NEW), all chains, all ISS objects, both dtypes of the data and of the cached input", "All chains and all datasets of both dtypes.",
  ["fruits/preparation/transform.py", "fruits/preparation/filter.py", "fruits/preparation/wrapper.py", "fruits/cache.py:_L1_sum", "fruits/iss/semiring.py:Semiring.iterated_sums", "fruits/iss/cos.py:CosWISS"])
p("C84", "NRM and NEW on integer datasets",
  "On an array of dtype int64, NRM returns an integer array that is 1 where a row (with scale_dim=True: the series) has its maximum and 0 everywhere else, and NEW(q) appends q's dimensions with the fractional parts cut off. The claim that NRM normalises and NEW appends what q returns fails for integer arrays (witnesses).",
  "all integer datasets, all preparateurs q", "All datasets.",
  ["fruits/preparation/transform.py:NRM", "fruits/preparation/wrapper.py:NEW"])

p("C85", "Labels of sieve features name the right segment and bin",
  "The label of feature number j*(len(q)-1)+b of a segment sieve names the j-th entry of cut and the b-th and (b+1)-th entries of q; INC and INT prefix it; past nfeatures() there is an IndexError. The feature with that number is computed on the segment ending at that cut and on that bin if the cuts resolve to increasing positions and the edges increase in the order of q. For cuts given in another order the claim fails: two sieves differing only in the order of cut return the same features for every input with different labels (witness).",
  "all segment sieves, cuts, q, input arrays, feature numbers", "All cuts and inputs.",
  ["fruits/sieving/segment.py:SegmentSieve._label", "fruits/sieving/abstract.py:FeatureSieve.label", "fruits/sieving/segment.py:SegmentSieve._transform"])

p("C86", "requires_fitting is honest",
  "Every preparateur that takes something from the data in fit (STD(separately=False), MAV, FFN, RIN, RDW, JLD, QTC, DIL, DOT, PDD, also inside DIM and NEW) has requires_fitting True, raises on every transform before it is fitted (RuntimeError or AttributeError), and after one successful fit never raises these again. Where requires_fitting is False, no history of successful calls changes what transform returns. The same for ISS and CosWISS. The converse (True only if fit matters) fails for STD(), CTS, SPE and RPE (witness).",
  "all preparateurs, wrappings, ISS, CosWISS objects, call histories and inputs", "All histories and inputs.",
  ["fruits/seed.py:Seed.requires_fitting", "fruits/preparation/wrapper.py", "fruits/preparation/transform.py", "fruits/preparation/filter.py", "fruits/iss/cos.py:CosWISS.requires_fitting"])
p("C87", "Windows and weightings in a fruit look at the fruit's input",
  "A WIN preparateur of a slice zeroes outside of the window given by the quadratic variation of the fruit's raw input, whatever the preparateurs before it did; inside NEW it uses the series it is given. The L1 and L2 weightings of an ISS use the fruit's input, with on_prepared=True the prepared series, and on their own both are the same; Indices, Plateaus, user-defined weightings, CosWISS and unweighted sums do not depend on the cache.",
  "all windows, words, weightings, inputs and prepared arrays", "All inputs.",
  ["fruits/fruit.py:FruitSlice.transform", "fruits/preparation/filter.py:WIN", "fruits/iss/weighting.py:L1", "fruits/iss/weighting.py:L2", "fruits/cache.py:SharedSeedCache"])

p("C88", "Preparateurs transform new data with what they learned from the training set",
  "After p.fit(F), p.transform(X) of a preparateur object - whatever it was fitted on before, with or without a cache - uses exactly the quantities of the last training set F: STD(separately=False) the mean and deviation of all its values, a float MAV its length, QTC the quantile of all its values, RIN a window of at most its length minus one with freshly drawn centred kernels and one share of the dimensions per output, JLD one drawn weight per pair of dimensions (per dimension when distributed, each belonging to exactly one output), DIL the strips drawn for it, DOT and PDD the positions for its length.",
  "all training sets, data sets, earlier states, options and random draws", "All inputs, histories and random draws.",
  ["fruits/preparation/transform.py:STD", "fruits/preparation/transform.py:MAV", "fruits/preparation/transform.py:QTC", "fruits/preparation/transform.py:RIN", "fruits/preparation/transform.py:JLD", "fruits/preparation/filter.py:DIL", "fruits/preparation/filter.py:DOT", "fruits/preparation/filter.py:PDD", "fruits/seed.py:Seed.fit"])

p("C89", "The preparation stage does not write to the caller's array",
  "transform of every preparateur (and the preparation stage of FruitSlice.transform and fit, with callbacks that only observe and user functions that do not write) leaves the array it is given, and every other array that exists, bit for bit as it was, whether it returns or raises; what it returns is an array that did not exist before (a FUN may return its argument, INC(depth=0) does), with the values of the functional description. In fit the sample is a view of one series of the caller's array or a copy of several; the same holds for both.",
  "all preparateurs and nestings of DIM and NEW, all pipelines, arrays, views, memory states and outcomes", "Aliasing and in-place updates depend on every combination of classes, views and exceptions.",
  ["fruits/preparation/transform.py", "fruits/preparation/filter.py", "fruits/preparation/wrapper.py", "fruits/fruit.py:FruitSlice._select_fit_sample", "fruits/fruit.py:FruitSlice.transform"])
p("C90", "User code that writes to the arrays it gets",
  "Functions given to FUN and callbacks get the library's own arrays, not copies: a callback acts exactly like a FUN with the same function behind every preparateur, so that its writes change the features. The caller's data is safe whenever the first preparateur allocates its result and hands its argument to no user function, and in fit when the sample has several series; it is overwritten (witnesses) by a writing FUN in first place, also inside NEW but not inside DIM, by a callback of a slice without preparateurs, which gets the caller's own array, and in fit with one series, where the sample is a view.",
  "all pipelines, callbacks, functions, memory states and outcomes; witnesses", "Depends on everything user code may do to an array.",
  ["fruits/fruit.py:FruitSlice.transform", "fruits/fruit.py:FruitSlice._select_fit_sample", "fruits/preparation/transform.py:FUN", "fruits/preparation/wrapper.py:NEW", "fruits/callback.py:AbstractCallback"])

p("C91", "Text of summary()",
  "FruitSlice.summary() consists of a centred header with the number of features, a rule, the preparateurs, the ISS calculators (number of iterated sums, words, semiring, weighting) and the sieves with their feature counts, one seed per entry in the order of addition and a blank line for an empty group; Fruit.summary() shows a header with its name and total number of features and the slices in order, two next to each other, the shorter one filled up with blank lines, an odd last one alone. The numbers in the headers are those of nfeatures(). Every line has 38 (slice) or 80 (fruit; 40 for a slice alone) columns as long as the texts fit. Exception: a slice without ISS has a line of 76 columns followed by an empty line.",
  "all configurations of slices and fruits, names of seeds and numbers", "All configurations.",
  ["fruits/fruit.py:Fruit.summary", "fruits/fruit.py:FruitSlice.summary", "fruits/fruit.py:FruitSlice.nfeatures"])
p("C92", "Fruit.transform returns a new array and leaves the caller's data alone",
  "Fruit.transform of a fitted fruit, called with an array X, callbacks that only observe and user functions that only read, writes to no array that existed before the call (in particular not to X), whether or not it raises, and returns a newly allocated array that holds the feature matrix; the intermediate arrays (prepared data, arrays of iterated sums, features of a slice, views handed to callbacks) never alias X or the result in a way that changes this.",
  "all fruits reachable by API calls, numbers and orders of slices and seeds, inputs, observing callbacks, memory states", "Aliasing must be excluded for every pipeline and every memory state.",
  ["fruits/fruit.py:Fruit.transform", "fruits/fruit.py:FruitSlice.transform", "fruits/fruit.py:FruitSlice._iterate_iss", "fruits/iss/iss.py:ISS.batch_transform", "fruits/callback.py:AbstractCallback"])
p("C93", "Callbacks that write to the arrays they are given",
  "If every slice begins with a preparateur that allocates its result and is no user function (or has none, and nothing listens to on_preparation_end), no callback at any of the six places and no user function can change the caller's data or the features of earlier slices, even if the call raises. A callback that overwrites iterated sums acts exactly as if every sieve applied the same function to its argument first; one that overwrites the features of a slice in on_sieving_end replaces exactly these features. Exception: on_sieve gets the rows, not the columns, that have the numbers of the sieve's features.",
  "all fruits, inputs and callbacks that write at most to the array they are given", "All callbacks and all interleavings of batches, sums and sieves.",
  ["fruits/fruit.py:Fruit.transform", "fruits/fruit.py:FruitSlice.transform", "fruits/callback.py:AbstractCallback"])
p("C94", "The lists of a slice in the hands of the caller",
  "The lists returned by get_preparateurs, get_iss and get_sieves are live: until the corresponding clear is called they show, at every later time, exactly what the slice consists of; after a clear the caller keeps the old objects and neither list affects the other any more. Changing a list changes exactly this list of the slice: in particular a fitted slice stays marked as fitted. A sieve appended this way to a fitted slice whose sieves are fitted per iterated sum is counted in nfeatures() but never used: transform returns the old features followed by columns of zeros.",
  "all slices, all interleavings of API calls, get_* calls and changes of the lists obtained", "All histories of calls and list mutations.",
  ["fruits/fruit.py:FruitSlice.get_preparateurs", "fruits/fruit.py:FruitSlice.get_iss", "fruits/fruit.py:FruitSlice.get_sieves", "fruits/fruit.py:FruitSlice.clear", "fruits/fruit.py:FruitSlice.transform"])
p("C95", "A fit that raises",
  "If FruitSlice.fit raises, no fruit, no other slice and no existing sieve is changed, and the slice keeps its seeds, its fit_sample_size and whether it counts as fitted. Its fitted sieves are the old ones, or the fitted copies for exactly those iterated sums that were finished, fewer than all. Hence a slice that was not fitted raises RuntimeError in transform, and one that was stopped after some, but not all iterated sums raises whatever it is given. If Fruit.fit raises, the slices before the one that raised are fitted, the others and the fruit's own state are as before. A fitted slice is not always as before or unusable after a failed fit (witness: features from refitted preparateurs with old sieves, or from sieves that are not fitted, without any error).",
  "all seeds that obey the laws of S_Fruit, all histories, data, and all places in fit where a seed can raise", "All crash points of a fit in all histories.",
  ["fruits/fruit.py:FruitSlice.fit", "fruits/fruit.py:Fruit.fit", "fruits/fruit.py:FruitSlice.transform"])
p("C96", "An add that raises",
  "FruitSlice.add appends its arguments in order up to the first one it rejects (TypeError for what is no seed, or what the constructor of a class raises): the ones before stay added, the ones after are ignored, and if at least one was added the slice counts as not fitted. If Fruit.add raises, either nothing was changed at all or transform raises until the fruit is fitted again, although the fruit itself is not marked as unfitted.",
  "all lists of arguments, all states", "All lists of objects and classes and all positions of the offending one.",
  ["fruits/fruit.py:FruitSlice.add", "fruits/fruit.py:Fruit.add", "fruits/fruit.py:Fruit.transform"])
p("C97", "Texts of general words",
  "Word(s) and ExtendedLetter(s) accept exactly the following texts. A word is a sequence of extended letters each closed by ']', whose first character is not looked at; what follows the last ']' is ignored. An extended letter is a sequence of letters each closed by ')', and again what follows the last one is ignored. A letter is a registered name, one '(' and an integer in Python's syntax (blanks around it, a sign, underscores between digits), which is the dimension counted from 1. The first letter, in reading order, that is not of this form decides about the exception: RuntimeError if only its name is unknown, ValueError otherwise. The object holds the functions and dimensions in this order and prints them.",
  "all texts, all registered letters", "All strings; tests read a few printed words.",
  ["fruits/iss/words/letters.py:ExtendedLetter", "fruits/iss/words/word.py:Word.multiply"])
p("C98", "Arctic argmax: general words and labels",
  "An extended ISS with Arctic(argmax=True) and general words (not simple words) never returns positions of maxima: if every non-empty word has exactly one prefix that is no prefix of an earlier word, the call returns, for every word, the iterated sum of the whole word repeated as often as values and positions together would take; in all other cases it raises ValueError. For words of any kind, the rows of an argmax ISS outnumber its labels: labels are those of the distinct prefixes, and asking for the label of the last row raises IndexError.",
  "all lists of words, registered letters, input arrays", "All lists of words and all inputs.",
  ["fruits/iss/iss.py:_calculate_ISS", "fruits/iss/iss.py:ISS._label", "fruits/iss/semiring.py:Semiring.iterated_sums"])
p("C99", "Changing the unit of measurement",
  "If all values a sieve is fitted on and applied to are multiplied by the same positive factor k, every feature is multiplied by a fixed power of k that depends on the class only: k for maxima, minima, last values and means of positive increments, k squared for curvatures (and AVG, STD as they are), 1 for counts, positions, PPV and CPV. Cuts at coquantiles stay where they are when the cache's input is rescaled by any factor but zero, in one dimension or in all. Consequently, giving one dimension of all data in another unit multiplies the features of a simple word over the reals by (k to the sum of the exponents of that dimension) to that power, and for the max-plus semiring, all dimensions rescaled, by k to that power. The only exception are thresholds of PPV and CPV with constant=True other than 0.",
  "all sieves and wrappers, fitted values, data, factors, words", "All data sets and all factors; tests use a few arrays in one unit.",
  ["fruits/sieving/segment.py:SegmentSieve", "fruits/sieving/implicit.py:PPV", "fruits/sieving/wrapper.py:INC", "fruits/cache.py:SharedSeedCache.get"])
p("C100", "Offsets in the data",
  "If every slice of a fruit begins with INC(zero_padding=True) of depth at least 1, STD(separately=True) or NRM(scale_dim=False), then adding a constant to every dimension of every series of the training data and of all data transformed later, another constant for each series and dimension, makes no difference to anybody: fit and transform return the same features, raise the same exceptions, and callbacks are given the same arrays. This holds although coquantile cuts, weightings and windows further down the slice read the raw input of the fruit and not what the first preparateur made of it, for all random choices, and however the fruit was built and fitted before. Without zero padding it is false.",
  "all fruits, seeds, data sets, offsets, random choices", "All fruits and data; tests fix a few arrays.",
  ["fruits/preparation/transform.py:INC", "fruits/preparation/transform.py:STD", "fruits/preparation/transform.py:NRM", "fruits/fruit.py:Fruit.fit", "fruits/fruit.py:Fruit.transform", "fruits/cache.py:SharedSeedCache.get"])
p("C101", "Units of measurement and normalised data",
  "If every slice of a fruit begins with NRM(scale_dim=False), and no L1 or L2 weighting with on_prepared=False and no SPE with a step exists, then measuring every dimension of every series, training data and data transformed later, in another unit and from another zero (x to a + k x, k positive, another a and k for each series and dimension) makes no difference to anybody: fit and transform return the same features, raise the same exceptions, and callbacks are given the same arrays. This includes cuts at coquantiles and windows, which read the raw input, for all random choices, and however the fruit was built and fitted before. With STD(separately=True) in place of NRM it is false, because std_eps is added to the standard deviation.",
  "all fruits, seeds, data sets, units, random choices", "All fruits and data; tests fix a few arrays.",
  ["fruits/preparation/transform.py:NRM", "fruits/preparation/transform.py:STD", "fruits/iss/weighting.py:L1", "fruits/fruit.py:Fruit.fit", "fruits/fruit.py:Fruit.transform", "fruits/cache.py:SharedSeedCache.get"])
p("C102", "Features that do not see time warping",
  "END, MAX and MIN (edges -1, 0, 1), and the number and mean of positive increments NPI and MPI (default edges), with the default cut=[-1], return the same features, or raise the same exception, when steps of the rows they are applied to are repeated, any steps any number of times and different ones in each row. Consequently the features that these sieves take from the iterated sums of increments, INC(zero_padding=True) followed by an ISS with simple words over the reals with non-negative exponents, do not depend on the speed at which the series is run through: repeating time steps of the data anywhere changes none of them.",
  "all arrays, all repetitions, words, bins", "All insertions into all series; tests use a few arrays.",
  ["fruits/sieving/segment.py:MAX", "fruits/sieving/segment.py:MIN", "fruits/sieving/segment.py:END", "fruits/sieving/increment.py:NPI", "fruits/sieving/increment.py:MPI", "fruits/preparation/transform.py:INC"])
if __name__ == "__main__":
    out = os.path.join(os.path.dirname(__file__), "..", "properties.jsonl")
    with open(out, "w") as f:
        for x in P:
            f.write(json.dumps(x) + "\n")
    print(len(P), "properties")
