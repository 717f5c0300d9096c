# Formal model of PyFCM in Rocq (Coq 8.16.1) — design

## 1. Approach

* **Shallow, executable model**, function by function, in `rocq/theories/`. Every definition cites the
  file and lines of `/repo` it models and says where it simplifies.
* **Numbers.** All model code is parametrised by a record of number operations (`Num F`, file `Num.v`):
  theorems that need no arithmetic law (state machine, histories, JSON, joins, termination, dispatch) are
  proved for *every* `F` — so also for IEEE-754 doubles evaluated in the code's order.  Theorems that need
  algebra are proved for the instance `F = R` (exact arithmetic).  `Conformance.v` instantiates the model with
  the kernel's binary64 floats and replays the repository's own test vectors (tests, not proofs).
* **Exceptions are values** (`res`), and a raising method also returns the object state it leaves behind,
  so partially completed mutations are visible (`fcm -> fcm * res A`).
* **Python dicts** are association lists in insertion order with in-place update.
* **Loops** become structural recursion; `while` loops get explicit fuel computed from the object, plus a
  proof that the fuel is never exhausted.
* **Nondeterminism** (iteration order of a Python `set`, random initial partitions, `np.polyfit`) becomes an
  explicit argument of the model function, universally quantified in the theorems.

## 2. Files

Model (each definition cites the lines it models and its simplifications):

| file | models |
|---|---|
| `Base.v` | results/exceptions, ordered dicts, list update, `str.split` |
| `Num.v`, `QNum.v`, `FloatNum.v` | number operations; instances `R` (theorems), `Q` (examples, witnesses), binary64 (tests) |
| `Functions.v` | `utils/functions.py`, `utils/__const.py` |
| `Fcm.v`, `Plot.v` | `fcm.py`; `Plot.v` has the two plotting methods and the name lists of `utils/functions.py` |
| `Loader.v` | `loader.py`, `fcm.py` 667-734 (`to_json`) |
| `LearnUtils.v`, `Assoc.v`, `Estimator.v`, `EstInput.v` | `learning/utils.py`, `learning/association.py`, `fcm_estimator.py` |
| `Cmeans.v`, `RlCmeans.v`, `CmeansN.v`, `Discret.v`, `ClusterNames.v` | `learning/discretization/*` |
| `Pipeline.v` | the discretization as the generator calls it (joins `Discret.v` and `Assoc.v`) |
| `Dataset.v` | `utils/__init__.py` (data set loading) |

Specifications used in theorem statements, independent of the model's helper functions: `Spec.v`, `FcmSpec.v`,
`VecSpec.v`, `DynSpec.v`, `LoaderSpec.v`, `LearnSpec.v`, `AssocSpec.v`, `EstSpec.v`, `RowSpec.v`, `SepSpec.v`, `ClusterSpec.v`, `DatasetSpec.v`.

Proof files: `*Facts*.v`, `FcmInv*`, `FcmIter`, `FcmRun*`, `FcmVec*`, `FcmView`, `FcmOrder`, `VecOrder`, `ColOrder*`, `FcmBasics`, `FcmStop`, `FcmTotal`, `FcmTwin`, `FcmRename*`,
`Dynamics*`, `VecDyn`, `CmeansNOne`, `CmeansDescent*`, `CmeansIso`, `Assoc*`
(`Gen`, `Label`, `Names`, `Order`, `Predict`, `Range`, `Result`, `Row`, `Unique`), `EstFacts*`, `RealFacts`.

Theorems named in `MANIFEST.json` are all in `Prop*.v` (`PropFunctions`, `PropFcm`, `PropConcept`, `PropInference`, `PropDynamics`, `PropVec`, `PropVec2`, `PropVec3`, `PropPlot`,
`PropLoader`, `PropCluster`, `PropAssoc`, `PropEstimator`, `PropEstimator2`, `PropEstimator3`, `PropRows`, `PropSeparated`, `PropRectified`, `PropPipeline`, `PropPipeline2`, `PropRename`, `PropShift`, `PropColumns`, `PropNames`, `PropUnits`, `PropCycle`, `PropUnknown`, `PropJoin`, `PropJoin2`, `PropSilhouette`, `PropVote`, `PropWeights`, `PropCfe`, `PropTwin`, `PropPerm`, `PropJumps`, `PropClusterN`, `PropDataset`), each followed by `Print Assumptions`, with
examples showing that the hypotheses can be met.

Tests of the model itself: `Conformance.v` (vectors in `ConfVectors.v`) replays the repository's unit tests on binary64
floats, bit for bit: all of `test_functions.py` and `test_public_library_functions.py`, all of `test_fcm.py` and the
discrete part of `test_generator.py`.  Three expectations of those tests contradict the code at this commit, and are
replayed modulo the difference: the tests expect `memory_influence` to default to False (code: True), decision MEAN over
the whole history (code: without the extra steps), and type SIMPLE in the JSON of a fuzzy concept (code: FUZZY).
`ConfReadme.v` replays the README's example of generating a map from data (fit, predict, score), also on binary64.

## 3. Properties: what is modelled and how it is proved

| id | method |
|---|---|
| C01 | invariant of the partition loop + strong induction on range length; permutation of the zipped array |
| C02 | corollary of C01 plus real inequalities |
| C03–C08 | case analysis over R with `exp`/`ln` monotonicity; full functional equations |
| C09 | algebra of `exp`/`ln` |
| C10–C12 | `searchsorted` characterised by induction on a sorted list; interpolation algebra |
| C13 | case analysis over names and argument dicts, any `F` |
| C14 | induction on lists |
| C15–C20, C22, C32 | invariants over all API call sequences (`fold_left step`) |
| C21, C26 | `reset` after `run` is the identity on initial values; determinism of the run |
| C23, C24 | loop measure; invariant on the countdown |
| C25 | loop invariant: histories are iterates of an independent recurrence |
| C27 | invariant over the recurrence + convexity of mean/max |
| C28 | sums are permutation-invariant over R |
| C29 | non-interference: relational invariant of two runs |
| C30 | matrix product = sum over relations (R); induction on steps |
| C31 | flat-memory model of the numba buffer; loop invariant |
| C33 | list filter characterisation |
| C34, C35 | structural induction over concept/relation lists, `_refuted` witnesses |
| C36–C39 | fold invariants over the list of maps; `split` lemmas |
| C40–C42 | induction over arrays |
| C43–C45 | induction over concept pairs; permutation argument |
| C46, C47 | fold invariant; `split` lemmas |
| C48–C51 | composition of the above |
| C52, C53 | positivity + sums of quotients over R; termination of the loops |
| C54–C57 | loop invariants |
| C58–C60 | direct, from the method models |
| C61 | the partition loop with a comparison that is false on NaN never gets past fuel, for any fuel |
| C62 | direct computation from `process_activation_dict`/`fuzzy_set` over R |
| C63 | loop invariant of the numba loop: position of the first sentinel |
| C64, C65, C67 | weighted means over R; monotonicity of powers; induction over arrays |
| C66 | symbolic execution of the first iterations; division by `n - 1` |
| C68 | induction over lines; refinement of the factorize/arff/csv readers to an independent description |
| C69, C71 | relational invariant of two runs (`tracks_agree`), then the stopping rule makes the runs equally long |
| C70, C72 | order and distance of two orbits by induction on steps; derivative bounds of the logistic function |
| C73 | the loop can only fail for lack of fuel, which C23 excludes; outcome of the decision functions |
| C74 | simulation of two maps with equal next-value functions (`twin_run`), applied to C34 |
| C75, C78, C79 | what the fitted map's concepts are called (C47), and which of them `predict` reads |
| C76, C77 | success of every step of the generator and of the run (C73); every level of a discrete column has a row |
| C80 | simulation of estimators that differ in the generator's first map |
| C81 | unfolding; decimal numerals are injective |
| C85 | the matrix loop can only stop by its counters; its column count is the position of the first sentinel (C63) |
| C86 | case analysis over the names |
| C87 | the loop is a filter of the histories, which have the concepts as keys |
| C88 | adding edges between known vertices keeps the vertices; outgoing lists are the relations (C17) |
| C89 | invariant of the scan over the values below, then above the given one |
| C90 | case analysis over the names |
| C91, C92 | success-preserving simulation of fit on related data; coefficients are sums over the rows, scaled by the number of repetitions |
| C93 | concepts of one block of rows get the same input, led by the block of the predicted row in every step; strict monotonicity of the activation function keeps the lead |
| C94 | concepts that never occur with the class of the row stay at 0 in every step, the right class gets a positive value in the first step and keeps it |
| C95 | the general step is unfolded column by column; the hull is stated by half-spaces (every linear bound of the data bounds the centres); one column: distances are absolute differences |
| C96 | as C95, with the invariant of the robust loop (shares, partition, hull) |
| C97 | a centre is the weighted mean (parallel-axis identity); memberships by a tangent inequality for x^m (`ClusterSpec.v` states the sums); limits by epsilon bounded separately |
| C98 | an affine map commutes with weighted means, and an isometric one keeps all distances the algorithms see |
| C99 | the recorded states are a trajectory of the iterative step (C30, C31), for which C27 and C69–C72 are proved; the stop rule on sums by the triangle inequality |
| C100 | the discretizations of C52–C56 as the generator calls them; interpolation at a stored value gives the stored degree, so no row of degrees is all zero and every measure can be evaluated |
| C101 | every fuzzy concept of a trained map has the arguments fuzzy_set needs and a total membership function; the step divides by the incoming weight sum, which is traced back to the relations built; for the vectorized engine, histories of one value in [-1,1] are kept through clearing and setting a row, so the run is never cut to nothing |
| C102 | renaming is a function on maps, calls and documents; every method commutes with it (law-free, every number type); the cached matrix of the vectorized engine is positional and does not change |
| C103 | the discretization commutes with the shift (C98 for the clustering); the trained map is the image of the other one under a change of the stored points (lemmas of C102); reading a value at a stored point, or a nonnegative one, does not see the shift |
| C104 | two orders of the building calls give maps with the same nodes and the same arcs up to order (induction over the permutation of a whole plan); a vectorized step is a sum over all concepts, so it is invariant under permutation; the limit and repeated pairs by evaluation |
| C105 | the training frame is processed column by column, so the fitted maps are permutations of each other (C104's relation between maps); the result of a row is read by names; test columns: the assignments of different columns commute |
| C106 | every step of the generator commutes with the renaming of concept names induced by the two renamings (injective, as names can be split uniquely); the map level is C102; sorted unique values commute with order-keeping renamings; ties by evaluation |
| C107 | one c-means step commutes with the factor while no distance is raised to eps; induction over the steps; the scores are quotients of equal degree; the generator as in C103; witnesses by evaluation and by computing one step by hand |
| C108 | pigeonhole on the states of the orbit; the next state is a function of the current one |
| C109 | induction over the steps with a bound on the values; the two runs stop at the same pass as differences have the same size; witnesses by evaluation |
| C110 | rows that set no concept start at 0 and stay there (C109 in both engines), so the first class wins; numbers are never written as True or 1.0; witness by evaluation |
| C111 | the document written for the copies is the one of the map; the specification of join_maps (C36, C37) for both ways; witnesses by evaluation |
| C112 | Every accumulated concept description is traced to the first map having the concept (`JoinFacts4.join_origin`); loading it gives the function. Documented default behaviour and the kept default function refuted by witnesses. |
| C113 | Invariant of the scan for the two largest memberships (`SilFacts.tops`), bounds of a weighted mean, and an invariant of the best-score loop. Independence of the numbering from uniqueness of the entries; ties refuted by a witness. |
| C114 | The weight from a feature value to a class value is its vote (`VoteFacts2.lw_vote`, counting rows of 0/1 vectors); one step of the map sums the votes, clamping keeps the order while the losers stay below 1 (`VoteFacts.vote_winner`), and the mean over the steps preserves it. Majority from the formulas of confidence and support. Other settings refuted by witnesses. |
| C115 | Both engines compute the same trace on the maps considered (`WeightFacts.runs_trace`); the two traces are compared step by step with the sum over the relations as a fold over two parallel lists (`incoming_larger`, `incoming_drift`, `incoming_scaled`). Needed conditions refuted by rational maps. |
| C116 | `CfeFacts.cfe_combined` rewrites the score of the model into the closed form of `CfeSpec.v`: the sums over pairs of different clusters become sums over all pairs (a cluster is 0 apart from itself), and the within part is expanded around the mean. Bounds from ln x <= x - 1. Tightness refuted by two clusterings of four points. |
| C117 | Every operation of a step keeps equal rows equal (`TwinFacts.twin_step`), by induction over the loop. With all rows equal the columns, which add up to 1, consist of 1/c, so the weights of all points are the same and the centres are the mean. The scores from the closed form of C116. |
| C118 | A step works on columns, and every operation on a column treats its entries alike wherever they stand (`PermFacts.even_handed`). So a step maps a function over the rows, the same one for every order of them (`step_perm`); induction over the loop. The scores from C116. |
| C82–C84 | symbolic execution against a relational description of the resulting concept; C01 for the sorted points |

Properties that the code violates are kept at full strength in `properties.jsonl`; the violation is proved as a
theorem ending in `_refuted` with a concrete witness, and what does hold is proved beside it.

## 4. What is modelled and what is not

* **Numbers.** `F` is abstract.  On `R` there is no NaN, no infinity, no rounding: theorems over `R` describe exact
  arithmetic.  Law-free theorems hold for any `F`, in particular for binary64 with the code's evaluation order.  Matrix
  products (`np.dot` in the vectorized engine) are summed left to right in the model; BLAS may use another order, which
  matters only for rounding.  `Q` examples use placeholder `exp/ln/sqrt/pow` and never evaluate them.
  Numbers handed to maps are Python floats, as the numba functions and JSON return them: a division by zero raises.  With
  numpy scalars it would give inf or nan and a warning.
* **Python objects.** Function objects are identified by their registered names.  Arguments of unexpected Python types
  are modelled where the code has a test for them (e.g. `is_active` not bool) and excluded otherwise; JSON values of a
  wrong type raise TypeError at once in the model instead of being stored.  JSON text is represented by its decoded
  value (`loads (dumps v) = v`); malformed text is not represented.  String-valued activation arguments are not modelled.
* **numba.** Out-of-bounds reads are undefined (`EUndef`); out-of-bounds writes of the result buffer set a ghost flag
  (C31).  A mirrored array shorter than the main one is undefined in numba and `EIndex` in the model; no theorem uses it.
* **numpy/pandas/scipy.** `np.unique`, `searchsorted`, `min/max`, sums, norms are modelled as list functions; `np.polyfit`
  in `estimate_clusters`, random initial partitions, iteration order of Python sets, `str` of a float, truncation of a
  float to an int and (inside `Assoc.v`) the discretization itself are parameters, universally quantified; `Pipeline.v` supplies
  the actual discretization (C100).  Random numbers are a function of the feature, not of a global state: C91, C103, C105 and C107
  compare two fits with the same random numbers per feature.
  `pd.read_csv`'s typing of columns is a parameter of `Dataset.v` (record `values`); a file is a list of lines, white
  space is ASCII.  Estimator inputs of the kinds the code tests for are in
  `EstInput.v`, the rest of the theorems are about data frames; results with unequal column lengths (which pandas rejects) and
  `DataFrame.apply` on an empty frame (`EUndef`) are outside the theorems.
* **Plots** are modelled up to the lines or the graph handed to the drawing library and the file name.
* **Not modelled:** random colours and layout of plots, progress messages, `warnings`, file system access.
* **Log of wrong programs** (`seeded/LOG.jsonl`).  A theorem counts as failed when the unchanged proofs no longer establish
  it, directly or through a lemma.  That can be the proof script breaking on a statement that is still true of the edited
  program (H06 was such a case: C55 did not notice a missed last jump, `C55_growing_jumps` now does).  The entries were not
  all checked for this.

## 5. Findings

Behaviours of the code at this commit that contradict its documentation, its tests or a reasonable expectation.
(T) = proved, with the theorem in brackets.

1. `to_json`/`from_json` lose information: `is_active` and `use_memory` are written under keys that are not read, the
   excitation function is not written, FUZZY/REGRESSION types come back as SIMPLE, and a map with a fuzzy concept cannot
   be loaded at all (T: C34).  A map saved after a run restarts from the last values (T: C74).
2. `add_concept` on an existing name discards its outgoing relations and its incoming weight sum but leaves the global
   relation list (T: C17, C18).
3. The two engines differ: repeated relations (summed / last one wins), inactive origins (ignored by the vectorized
   engine), fuzzy concepts with zero or negative incoming sum, the stop flag, and oscillating maps, which the vectorized
   engine takes for stable (T: C30, C63).
4. The vectorized engine can write past its result buffer (T: C31).
5. The vectorized engine uses 2.0 as end marker and returns empty histories for `max_iter = 1`; `predict` then raises
   ZeroDivisionError and the next `fit` IndexError (T: C51).  A run also raises when the first concept starts at 2.0,
   but not when another one does (T: C85).
6. `extra_steps <= 1`: no inference step is executed (T: C59).
7. Decision EXITED with no step before the extra steps raises ValueError: always for `max_iter = 2`, and for maps that are
   at rest from the start (T: C14, C73).
8. A fuzzy concept whose incoming weights sum to zero raises ZeroDivisionError in the iterative engine (T: C30).
9. An `add_concept` that raises leaves a half-made concept behind; later calls then raise KeyError (T: C19).
10. `set_map_activation_function` does not change the default of concepts added later (T: C58).
11. `set_concept_properties` resets memory and function when they are not given; a raising call may leave half of
    its changes behind (T: C82).
12. `is_stable` raises IndexError after `reset_execution`, and is always False on a map that only ran vectorized
    (T: C60).
13. `fuzzy_set` on negative inputs is not an interpolation (T: C11).
14. `threestate` thresholds are 1/3 and 2/3, not the documented 0.25 and 0.75 (T: C04).
15. `clear_all` keeps the vectorized engine's prepared data: running the emptied map succeeds after an earlier run and
    raises otherwise (T: C32).
16. `join_maps` splits relation keys at a separator that may occur in names (T: C39).
17. Concept names of generated maps are parsed by splitting at `___`; values ending in `_` or containing the separator
    are attributed to the wrong feature (T: C47).
18. Boolean and float values never activate their concept at prediction; text labels of digits are returned as ints,
    negative integer labels as text (T: C46, C48).
19. `fit_inclination` is set on a map that is thrown away: it has no effect (T: C80).
20. `__create_three_clusters` (T: C54), c-means with `maxiter <= 1` (T: C52), robust c-means on at most one point
    (T: C66) fail or return degenerate results.
21. A NaN in a fuzzy description makes the paired sort loop for ever (T: C61).
22. `from_json` accepts unknown custom functions when given by a description (T: C35).
23. Continuous targets: `predict` never returns them, `score` raises KeyError (T: C78).
24. A column name shared by features and targets mixes both up (T: C79); so do array targets next to a frame with
    numeric column names (T: C81).
25. `cmeans-sil`/`cfe` use unseeded random numbers: `fit` is repeatable only for the same draws (C51).
26. `load_csv_dataset` with repeated column names raises or tears rows apart (T: C57); a text-only csv without a `class`
    column makes `load_dataset` raise KeyError('') (T: C68).
27. `fit` and `score` raise AttributeError for dictionaries and IndexError for one-dimensional features, although `predict`
    takes dictionaries (T: C81).
28. `add_concept` silently replaces an unknown type by the default one (T: C83).
29. `set_default_concept_properties` with type REGRESSION and no description is accepted but makes later `add_concept`
    calls raise KeyError; a default function is overwritten by `set_map_activation_function` (T: C84).
30. `get_function_names` lists `proportion` (activation) and `MEAN` (excitation), which nothing accepts, and omits
    `fuzzy` (T: C86).
31. `plot_execution` selects everything by "all", `get_final_state` by "any"; the other name selects nothing (T: C87).
    `plot_topology` misses relations of concepts added twice (T: C88).
32. `fuzzyfication` returns the least (greatest) membership outside the stored values, and the least one unit or more
    above any value, whatever the membership of the nearest value (T: C89).
33. `estimate_clusters` warns that it falls back to gap concentration, but then assigns the function object instead of
    its name and returns one cluster and no description (T: C90).
34. With the default measure `pos_inf` the weights depend on the size of the data set: training on every row twice
    changes weights and predicted labels (T: C92).
35. Data in which the feature determines the class can be mispredicted by the estimator's own training run: with a
    threshold equal to the share of the values, with a single extra step, with `fcm_max_it` 2 in the vectorized engine
    (every label wrong), or when a vectorized run writes beyond its result matrix (T: C93).
36. A class that the only feature determines is mispredicted for five of six training rows when the causality function is
    `bayes` (it rates every implication with a rare cause 0), when the excitation function is PAPAGEORGIUS, or with the
    last value as decision and without memory (T: C94).
37. In a vectorized run that reaches the iteration limit, the final value of a concept can depend on the initial value of
    a concept it is not connected with at all (decisions MEAN and EXITED read the overwritten first column; T: C99).
38. An estimator trained on a continuous feature without an exclusion value (and without double or feature relations)
    cannot predict in the iterative engine: no relation ends in a cluster of the feature, so finding 8 strikes in every
    row (T: C101).
39. The predictions of a trained map depend on the zero point of a scale: moving a positive column by a constant
    changes predicted labels, because the scaled stored values assume that the minimum is not positive; and so does
    moving new negative values, which are interpolated with their absolute value (T: C103).
40. With the default engine the order in which concepts are added, and so the order of the columns of the training data,
    changes final values and predicted labels once a run reaches the iteration limit (T: C104, C105).
41. Of several equally activated classes the alphabetically first is predicted, so renaming a class can change which one is
    predicted (T: C106).
42. The unit of a column matters in three places: `fuzzy_set` takes a negative value for a negative activation if all
    stored values lie in [0, 1], so in another unit it is read differently; c-means raises distances to eps, so in a tiny
    unit every membership is equal; the memberships of rl-cmeans are exponentials of squared distances (T: C107).
43. The decision EXITED is the maximum of the history, so an inhibited concept (0, then -1/2 for good) gets the value 0,
    while its excited counterpart gets 1/2 (T: C109).
44. Boolean features, and floats taken as discrete values, never influence a prediction: training names their concepts
    after `True`/`1.0`, prediction after `int(value)`, so the concept is not found and, as presence is not required,
    nothing is said. With only such features every row gets the alphabetically first class (T: C110).
45. `join_maps` is not associative with `average` (two maps with 0 and one with 1 give 1/2 in two steps, 1/3 at once) nor
    with `ignore_zeros`, and makes one relation of two between the same concepts, even of a map joined with itself (T: C111).
46. `join_maps` documents that nodes and the joined map get default behaviour; in fact the first map's settings and the concepts' own functions are kept, and a concept that uses its map's default function silently switches to the first map's default function (T: C112).
47. `fuzzy_silhouette` never takes a membership equal to the largest one as the second largest, except for the first two clusters: a point shared equally by two clusters is ignored if these are numbered 0 and 1 and counts with a positive weight otherwise (T: C113).
48. With its default causality function (positive influence) the estimator predicts, for a single feature, a class that is not the most frequent one of the feature's value: a with v, v, v and b with u, v, v give u for b. With confidence three features that all favour v by 3/5 against 2/5 give u, because both sums are cut off at 1 and the alphabetically first class wins the tie (T: C114).
49. In a map of two-state concepts with memory, doubling all weights changes the values, although the weights are only compared with each other in a map without memory; raising the weight of a PAPAGEORGIUS concept whose value is below 1/2 lowers the value of its target, since such a concept sends out 2v - 1 (T: C115).
50. The combined fuzzy entropy (`cfe`, clusters_estimation.py line 138, the estimator's default strategy) multiplies each membership by the squared norm of the distances of *all* points from the centre instead of that of the point, so it does not measure how tight the clusters are: clusters containing the points of the other group score the same. The part of the score meant for this is below 1 / (c - 1) whatever the data (T: C116).

## 6. Trusted base

* Coq's kernel (8.16.1), including the `vm_compute` machine (used in examples, refutation witnesses and tests).
* The axioms below, all from Coq's standard library (classical reals).  No axiom is declared in this development.
  `Conformance.v` and `ConfReadme.v` also use the kernel's primitive floats; no theorem depends on them.
* The reading of Python/numba/numpy semantics described above and in the comments of each definition.
* The specifications in `*Spec.v` and the statements in `Prop*.v`.

| axioms (`Print Assumptions`) | theorems | names |
|---|---|---|
@@AX@@
