#!/usr/bin/env python3
"""Writes properties.jsonl from the table below (documentation tool only)."""
import json
P = []
def p(id, title, statement, quantifier, why, anchors):
    P.append(dict(id=id, title=title, statement=statement, quantifier=quantifier,
                  why_tests_cant=why, anchors=anchors))
FN = "py_fcm/utils/functions.py"; FC = "py_fcm/fcm.py"; LO = "py_fcm/loader.py"
AS = "py_fcm/learning/association.py"; ES = "py_fcm/fcm_estimator.py"; LU = "py_fcm/learning/utils.py"
CM = "py_fcm/learning/discretization/fuzzy_cmeans.py"; RL = "py_fcm/learning/discretization/rl_fuzzy_cmeans.py"
DI = "py_fcm/learning/discretization/__init__.py"; CE = "py_fcm/learning/discretization/clusters_estimation.py"
UI = "py_fcm/utils/__init__.py"; PI = "py_fcm/__init__.py"
p("C01","Paired sort is correct",
  "dual_quick_sort(a, s, e, m) terminates; afterwards a[s..e] is in non-decreasing order, every index keeps the pairing (a[i], m[i]) of some original index (the pairs in s..e are a permutation of the original pairs), and nothing outside s..e moved.",
  "all arrays (any length, any values, duplicates included), all companion arrays of at least the same length, all bounds 0<=s, e<len",
  "A test sorts one 4-element array; correctness for every permutation, duplicate pattern and sub-range needs induction.",
  [f"{FN}:__partition", f"{FN}:dual_quick_sort"])
p("C02","Stored fuzzy description is the sorted user description",
  "When a FUZZY/REGRESSION concept is added with an activation_dict, the description the map keeps (and writes to JSON) is the user's (value, membership) pairs sorted by value - no pair lost, invented or re-paired - and the values used for inference are (v+|min|)/(|min|+max), which are sorted too, lie in [0,1] and reach 1 whenever |min|+max > 0.",
  "all activation_dicts with equally long lists and at least one value with |min|+max>0",
  "Needs the sort to be right for all inputs, and an inequality over the reals.",
  [f"{FC}:FuzzyCognitiveMap.__process_activation_dict", f"{FC}:add_concept"])
p("C03","Saturation clamps to [0,1]",
  "saturation(x) = min(1, max(0, x)).",
  "all numbers x", "Infinite domain.", [f"{FN}:saturation"])
p("C04","Two-state and three-state activations",
  "biestate returns 1 exactly for positive input and 0 otherwise; threestate returns only 0, 0.5, 1, is non-decreasing and switches exactly at 1/3 and 2/3 (the documented thresholds 0.25/0.75 are NOT what the code does).",
  "all numbers", "Infinite domain; boundary behaviour.", [f"{FN}:bistate", f"{FN}:threestate"])
p("C05","Sigmoid activation",
  "sigmoid(x, l) = 1/(1+e^(-l x)); it is strictly inside (0,1), strictly increasing in x for l>0, and sigmoid(-x,l) = 1 - sigmoid(x,l).",
  "all real x, l", "Infinite domain; analytic facts.", [f"{FN}:sigmoid"])
p("C06","Hyperbolic sigmoid activation",
  "sigmoid_hip(x, l) is strictly inside (-1,1) for every x and l, non-decreasing in x for l>=0, equals tanh(l x/2) whenever -l x <= 500 and is odd whenever |l x| <= 500; past the cut-off it is the constant value at the cut-off.",
  "all real x, l", "Infinite domain; cut-off branch only met by extreme inputs.", [f"{FN}:sigmoid_hip"])
p("C07","Rectified linear activation",
  "relm(x, l) with l>0 is min(1, max(0, x/l)); it returns 0 for negative x whatever l is; with l = 0 and x>=0 it raises ZeroDivisionError instead of returning.",
  "all numbers x, l", "Infinite domain and an error branch.", [f"{FN}:relm"])
p("C08","Conditional-equality activations",
  "gceq(x, w) is x clipped to [-1,1] when x>=w and 0 otherwise; lceq(x, w) is x clipped to [-1,1] when x<=w and 0 otherwise; both results always lie in [-1,1].",
  "all numbers x, w", "Infinite domain.", [f"{FN}:greater_cond_equality", f"{FN}:lower_cond_equality"])
p("C09","Fitted inclination inverts the activation",
  "sigmoid(x, sigmoid_lambda(x, y)) = y for x<>0 and 0<y<1; sigmoid_hip(x, sigmoid_hip_lambda(x, y)) = y for x<>0 and -1<y<1 as long as the exponent stays below the cut-off.",
  "all reals x<>0, y in the open range", "Infinite domain.", [f"{FN}:sigmoid_lambda", f"{FN}:sigmoid_hip_lambda"])
p("C10","Fuzzy activation at and outside the known points",
  "fuzzy(v) returns exactly the stored membership at every stored value, the first membership below the smallest value and the last membership above the largest value (for non-negative v, or a value list that is not inside [0,1]).",
  "all strictly increasing value lists, all membership lists of that length, all v",
  "Arbitrary list lengths and positions.", [f"{FN}:fuzzy_set"])
p("C11","Fuzzy activation interpolates linearly",
  "For v>=0 strictly between two consecutive stored values the result is the straight-line interpolation of their memberships (clipped to [-1,1]). For negative v between two stored values this is false of the code: a concrete description and value give a result of the wrong sign.",
  "all strictly increasing value lists, all memberships, all v>=0 in range",
  "Arbitrary list lengths, positions and reals.", [f"{FN}:fuzzy_set"])
p("C12","Fuzzy activation range",
  "If all memberships are in [0,1] then fuzzy(v) is in [-1,1] for every v; on a value list inside [0,1] a negative v yields fuzzy(|v|)-1, i.e. a value in [-1,0].",
  "all strictly increasing non-empty value lists, all memberships in [0,1], all v",
  "Arbitrary lists and reals.", [f"{FN}:fuzzy_set"])
p("C13","Both engines apply the same activation function",
  "For every activation function name and every argument set that the Python-level call accepts, the number-coded dispatch used by the vectorized engine applied to the flattened arguments returns the same value as the Python-level call.",
  "all function names, all accepted argument dicts, all inputs",
  "Each (name, arguments, input) triple would need its own test.", [f"{FN}:__exec_actv_function", f"{FN}:Activation", f"{FC}:__process_function_args"])
p("C14","Decision functions",
  "LAST returns the element at last_pos (the final element when last_pos<=0); MEAN the arithmetic mean of elements 0..last_pos (all elements when last_pos<=0); EXITED the maximum of the elements strictly before last_pos (of all elements when last_pos<0) and raises when last_pos=0.",
  "all value lists and positions", "Unbounded lists.", [f"{FN}:Decision"])
p("C15","Relations never dangle",
  "After any sequence of API calls (including calls that raise), every stored relation joins two concepts that exist in the map; add_relation with an unknown endpoint changes no observable state.",
  "all finite sequences of API calls from a fresh map", "Unbounded call histories.", [f"{FC}:add_relation", f"{FC}:clear_all", f"{FC}:to_json"])
p("C16","Concept names are unique and ordered by first insertion",
  "After any sequence of API calls the concepts listed by to_json/get_final_state have pairwise different names, in order of first insertion, and (when no add_concept call has failed) each has a non-empty execution history.",
  "all finite sequences of API calls", "Unbounded call histories.", [f"{FC}:add_concept", f"{FC}:to_json", f"{FC}:get_final_state"])
p("C17","Outgoing relations agree with the relation list",
  "If no concept is added twice, get_concept_outgoing_relations(c) is exactly the list, in insertion order, of the (destiny, weight) of the map's relations with origin c. Re-adding a concept breaks this (relations stay in to_json but the outgoing list is emptied).",
  "all finite sequences of API calls without re-adding a concept", "Unbounded call histories.", [f"{FC}:get_concept_outgoing_relations", f"{FC}:add_relation", f"{FC}:add_concept"])
p("C18","Fuzzy normaliser is the sum of incoming weights",
  "If no concept is added twice, the number a fuzzy concept's input is divided by during inference is the sum of the weights of all its incoming relations.",
  "all finite sequences of API calls without re-adding a concept", "Unbounded call histories.", [f"{FC}:add_relation", f"{FC}:__iterative_inference"])
p("C19","Failed calls and the map",
  "init_concept on a missing concept, set_concept_properties on a missing concept, set_map_decision_function with an unknown name raise and leave the map unchanged. add_concept with an unknown function name raises but does NOT leave the map usable: the next run_inference raises.",
  "all maps, all arguments", "All states and arguments.", [f"{FC}:add_concept", f"{FC}:init_concept", f"{FC}:set_concept_properties"])
p("C20","init_concept sets exactly one concept",
  "After init_concept(c, v) on a non-fuzzy concept, get_concept_value(c) = v; on a fuzzy concept it is the fuzzy activation of v; every other concept's value, every relation and every setting is unchanged.",
  "all maps, concepts and values", "All states.", [f"{FC}:init_concept", f"{FC}:get_concept_value"])
p("C21","reset_execution restores the initial activations",
  "After add/init of concepts and any number of iterative run_inference() calls, reset_execution() makes every concept value its initial activation again; it is idempotent and changes no relation or setting. clear_execution() makes every value 0.",
  "all maps built by the API and any number of runs", "Unbounded runs and maps.", [f"{FC}:reset_execution", f"{FC}:clear_execution"])
p("C22","clear_all empties the map and keeps its settings",
  "After clear_all the map lists no concepts and no relations, while the functions, limits and default concept properties are those set before.",
  "all maps reachable without a failed add_concept", "All states.", [f"{FC}:clear_all"])
p("C23","Iterative inference terminates within max_iter + extra_steps - 2 steps",
  "run_inference in iterative mode always terminates. The number of inference steps is at most max(max_iter-1,0) + extra_steps-1; with stop_at_stabilize off and extra_steps>=2 it is exactly that.",
  "all maps, all settings", "Termination for every map and every convergence behaviour.", [f"{FC}:__iterative_inference", f"{FC}:__keep_execution"])
p("C24","Early stop means the map is stable",
  "If iterative inference (extra_steps>=2) stops before max_iter steps, then in each of the last extra_steps-1 checks every concept's last two values differed by at most stability_diff.",
  "all maps and settings", "All convergence behaviours.", [f"{FC}:__iterative_inference", f"{FC}:is_stable"])
p("C25","Inference history is the FCM recurrence",
  "Every iterative run produces, for every concept i and step t, history[i][t+1] = f_i( [value_i(t) if memory] + sum over relations j->i with j active of w_ji * value_j(t) ), with value replaced by 2*value-1 for PAPAGEORGIUS concepts and the input divided by the incoming weight sum for fuzzy concepts; all concepts are updated synchronously from step t.",
  "all maps, all activation functions, all step counts, any number type (incl. IEEE floats, in the code's summation order)",
  "Every topology and length.", [f"{FC}:__iterative_inference", f"{FN}:Excitation"])
p("C26","Rerunning gives the same answer",
  "In iterative mode run_inference() followed by run_inference() leaves exactly the same concept values and histories as one run_inference().",
  "all maps on which the first run succeeds", "All maps.", [f"{FC}:run_inference", f"{FC}:reset_execution"])
p("C27","Inference results stay in range",
  "When all concepts use a [-1,1] (resp. [0,1]) activation function and start in that range, every history value and every final value (LAST, MEAN or EXITED) lies in that range.",
  "all maps, weights, run lengths", "All maps, weights and steps.", [f"{FC}:run_inference", f"{FN}:Decision"])
p("C28","Order of relations and of concepts is irrelevant",
  "In exact arithmetic two maps that differ only in the order in which relations were added compute the same histories.",
  "all maps, all permutations of the relation list", "All permutations.", [f"{FC}:__iterative_inference", f"{FC}:__vectorized_inference"])
p("C29","Inactive concepts influence nobody (iterative engine)",
  "If concept j is inactive, changing j's initial value changes no other concept's inference steps.",
  "all maps, all values", "All maps and values.", [f"{FC}:__iterative_inference"])
p("C30","Vectorized and iterative engines compute the same trajectory",
  "In exact arithmetic, on maps where all concepts are active, no ordered pair is related twice and fuzzy concepts have positive incoming weight sums, each vectorized step computes the same state as the iterative step. Without those conditions the engines differ (concrete witnesses).",
  "all such maps, all step counts", "All maps and steps.", [f"{FN}:vectorized_run", f"{FC}:__vectorized_inference", f"{FC}:__iterative_inference"])
p("C31","Vectorized inference terminates and its buffer accesses",
  "vectorized_run executes at most max_iterations steps. It writes outside its history rows exactly when it has not stopped before its max_iterations-th step; in that case the initial value recorded for every concept but the first is overwritten.",
  "all maps and settings with max_iterations>=1", "Memory-safety over all convergence behaviours.", [f"{FN}:vectorized_run"])
p("C32","Vectorized engine never uses stale data",
  "After any sequence of API calls, the matrix, functions, arguments, memory flags and normalisers used by a vectorized run are those of the current map, never those of an earlier version.",
  "all finite sequences of API calls leaving at least one concept", "Unbounded histories (cache invalidation).", [f"{FC}:__vectorized_inference", f"{FC}:add_relation", f"{FC}:set_concept_properties", f"{FC}:set_map_activation_function"])
p("C33","get_final_state selects exactly the asked concepts",
  "get_final_state returns, in insertion order, exactly the concepts with the requested names; else for 'any' all concepts, for 'target' all DECISION and REGRESSION concepts, and for any other type name exactly the concepts of that type - each with its current value.",
  "all maps, name lists and type names", "All states.", [f"{FC}:get_final_state"])
p("C34","JSON round trip",
  "For a map whose concepts are all active, KOSKO, SIMPLE or DECISION, not fuzzy and with the map's memory setting, from_json(to_json(m)) yields a map with the same to_json. In general this is false: activity, memory, type and excitation are lost, and maps with a fuzzy concept cannot be reloaded at all.",
  "all such maps reachable by the API", "All maps.", [f"{FC}:to_json", f"{LO}:from_json"])
p("C35","from_json fails only with its own exception",
  "from_json either returns a map or raises the exception 'Cannot load json data due: ...'; it raises whenever max_iter, decision_function, memory_influence, activation_function, concepts or relations is missing or a named function is unknown.",
  "all JSON documents", "All documents.", [f"{LO}:from_json"])
p("C36","Joined map has the union / intersection of concepts",
  "join_maps with 'union' has exactly the concepts occurring in some input map, with 'intersection' exactly those occurring in all; with ignore_zeros exactly those whose joined value is non-zero remain.",
  "all non-empty lists of maps", "Unbounded lists of maps.", [f"{LO}:join_maps"])
p("C37","Joined values and weights",
  "Each joined concept's initial value is the max / min / mean of its values in the maps that contain it, and each joined relation's weight is the max / min / mean of the weights of all its occurrences, provided its end concepts remain and no concept name contains or ends with (a part of) the separator ' |=====> '.",
  "all non-empty lists of maps", "Unbounded lists.", [f"{LO}:join_maps"])
p("C38","Join order does not matter for values and weights",
  "In exact arithmetic permuting the input maps of join_maps permutes the concepts and relations of the result but changes no concept value and no relation weight.",
  "all lists of maps and permutations", "All permutations.", [f"{LO}:join_maps"])
p("C39","Separator injection in join_maps",
  "The relation key used by join_maps is split back correctly exactly when the names do not contain the separator and the origin does not end with ' |=====>'; otherwise a relation is attributed to other concepts (witness).",
  "all pairs of names", "All strings.", [f"{LO}:join_maps"])
p("C40","Contingency coefficients",
  "calc_concepts_coefficient on two 0/1 arrays returns the four co-occurrence counts; on membership degrees in [0,1] all four are non-negative, they add up to the number of samples, and the second tuple is the coefficients with the roles exchanged. It returns None exactly on unequal lengths.",
  "all pairs of arrays", "Unbounded arrays.", [f"{LU}:calc_concepts_coefficient"])
p("C41","Relation measures",
  "With non-negative coefficients: supp and conf lie in [0,1] (conf is 0 when undefined), bayes is non-negative, pos_inf lies in [-1,1] whenever the coefficients are whole numbers (counts) but not in general; supp, lift, bayes and simple raise ZeroDivisionError exactly when their denominators vanish.",
  "all non-negative coefficient quadruples", "Infinite domain and error branches.", [f"{FN}:Relation"])
p("C42","One-hot feature matrix",
  "gen_discrete_feature_matrix(vals, np.unique(vals)) has exactly one 1 in every column, at the row of that sample's value.",
  "all non-empty columns", "Unbounded data.", [f"{LU}:gen_discrete_feature_matrix"])
p("C43","Generated maps: exclusion relations",
  "build_fcm relates every two different concepts of one feature in both directions with the exclusion value, creates no self-relation, and (exclusion value 0) creates none of these.",
  "all datasets", "All datasets.", [f"{AS}:__def_inner_feat_relations", f"{AS}:build_fcm"])
p("C44","Generated maps: relation weights",
  "Every relation between concepts of different features is non-zero, exceeds the causal threshold and equals sign * causality(coefficients); with the confidence measure all generated weights are in [-1,1].",
  "all datasets", "All datasets.", [f"{AS}:__def_relation_weight", f"{AS}:__def_two_feat_relation"])
p("C45","Generated map does not depend on set iteration order",
  "Whatever order Python iterates the set of processed features in, the generated relations are the same up to order, and in exact arithmetic inference results are the same.",
  "all datasets, all iteration orders (hash seeds)", "Schedule/hash-seed nondeterminism.", [f"{AS}:__def_all_feat_relations", f"{AS}:__def_feat_target_relation"])
p("C46","Prediction picks the most activated class",
  "For every target feature the predicted label is a class whose final activation is maximal; ties go to the first class in order, and if no activation exceeds -1 the first class is returned.",
  "all inference results", "All activation vectors.", [f"{AS}:__get_discrete_feature_result"])
p("C47","Concept name parsing",
  "The (feature, value) pair is recovered from a concept name exactly when the value text does not contain '___' or end with '_' and the feature name does not contain '___'.",
  "all value texts and feature names", "All strings.", [f"{AS}:__name_concept", f"{AS}:__get_feature_and_info"])
p("C48","Predicting an input activates its training concept",
  "For string and integer feature values seen in training, predict sets the matching concept to 1. For boolean and float-valued discrete features it never does (the concept name is spelled differently).",
  "all datasets and rows", "All values.", [f"{AS}:init_concept_by_feature_data", f"{AS}:__gen_discrete_concepts"])
p("C49","Rows are predicted independently",
  "The prediction for a row does not depend on the other rows or their order: predict on a list of rows is the list of single-row predictions.",
  "all models and row lists", "All row lists.", [f"{ES}:predict", f"{FC}:clear_execution"])
p("C50","Score is the fraction of matching labels",
  "score returns (number of positions where label equals prediction)/(number of labels), hence a number in [0,1]; it raises when not fitted.",
  "all label lists", "All lists.", [f"{ES}:score"])
p("C51","fit is repeatable",
  "Calling fit again with the same data gives the same map as calling it once; a previous fit with other data leaves no concept or relation behind.",
  "all datasets", "All histories of fits.", [f"{ES}:fit", f"{AS}:reset"])
p("C52","Fuzzy c-means partition",
  "Every membership matrix computed by a c-means step has entries in (0,1] and columns that sum to 1; the algorithm stops after at most maxiter-1 steps.",
  "all data sets with at least one cluster, m>1", "All data, all iterations.", [f"{CM}:_cmeans0", f"{CM}:cmeans", f"{LU}:normalize_power_columns"])
p("C53","Robust c-means partition",
  "Every membership matrix computed by robust c-means has rows summing to 1 with positive entries, resizing keeps rows and proportions summing to 1 and never increases the cluster count; the loop runs fewer than max_iter times.",
  "all data sets", "All data and iterations.", [f"{RL}:rl_fuzzy_cmeans"])
p("C54","Three-cluster fallback",
  "The fallback discretization returns an odd-length sorted value list of at least the given values and memberships in [0,1], with first value fully in cluster 0 and last fully in cluster 2. (Memberships summing to 1 at every point is false of the code.)",
  "all increasing value lists with at least 2 values", "All lengths.", [f"{DI}:__create_three_clusters"])
p("C55","Change points are ordered and spaced",
  "The change points estimated for a curve are strictly increasing positions inside the data, at least n/max_clusters apart, never more than max_clusters many, and the reported values are the curve at those positions. A curve that is flat up to a position and from there changes by at least as much at every step has exactly one, that position, even if only the last value differs.",
  "all curves, all max_clusters>=1; real arithmetic", "All curves.", [f"{CE}:__estimate_change_points"])
p("C56","Discretization needs ten values",
  "fuzzy_feature_discretization raises exactly when there are fewer than ten distinct values (or the strategy is unknown), and otherwise returns at least two clusters.",
  "all value lists", "All lists.", [f"{DI}:fuzzy_feature_discretization"])
p("C57","CSV rows are kept or rejected whole",
  "With pairwise different column names load_csv_dataset keeps exactly the rows having as many fields as the header, each only the first time it occurs, every field in its own column; all columns end up equally long. factorize=True replaces a value by the number of different values seen before its first occurrence. If column names repeat unevenly any data row makes loading fail; if they repeat evenly rows are torn apart silently (refuted).",
  "all files", "All inputs.", [f"{PI}:load_csv_dataset", f"{UI}:load_dataset"])
p("C58","Default activation of new concepts",
  "A concept added without an explicit function uses the default concept's function. After set_map_activation_function, concepts that follow the map function use the new one; concepts with their own function keep theirs. (Concepts added later still get the OLD function: refuted.)",
  "all maps and function names", "All states.", [f"{FC}:set_map_activation_function", f"{FC}:add_concept"])
p("C59","Degenerate extra_steps",
  "With extra_steps<=1 an iterative run performs no inference step at all: every final value is its initial activation.",
  "all maps", "All maps.", [f"{FC}:__iterative_inference", f"{FC}:__init__"])
p("C60","is_stable is meaningful",
  "After an iterative run is_stable() reports whether every concept's last two history values differ by at most stability_diff. After a reset it raises IndexError instead of answering (refuted), and after vectorized-only runs it always answers False.",
  "all maps", "All states.", [f"{FC}:is_stable"])
p("C61","A NaN in a fuzzy description hangs the map",
  "If any value of an activation_dict with at least two values is NaN (compares with nothing), sorting it - hence add_concept / set_concept_properties for a FUZZY or REGRESSION concept - never terminates.",
  "all value lists with at least two entries containing an incomparable entry, at any position",
  "Non-termination cannot be observed by a test.", [f"{FN}:__partition", f"{FN}:dual_quick_sort"])
p("C62","One-point fuzzy descriptions",
  "Reading a fuzzy description with a single stored value strictly above that value reads outside the arrays (undefined result), although the documented answer is the stored membership.",
  "all single-point descriptions and all larger inputs", "Undefined behaviour may look right in a test.", [f"{FN}:fuzzy_set"])
p("C63","When the vectorized engine stops",
  "A vectorized run stops at the first step at which the SUM of all concept values has moved by less than stability_diff in each of the last extra_steps steps, or after max_iterations steps; stop_at_stabilize has no effect. It can therefore stop while concepts still oscillate (refuted witness), unlike the iterative engine.",
  "all maps with at least one concept, all settings with max_iterations>=1", "Unbounded convergence behaviours.", [f"{FN}:vectorized_run", f"{FC}:__vectorized_inference"])
p("C64","Cluster centres stay inside the data",
  "Every centre computed by a c-means step, and every centre returned by robust c-means, lies between the smallest and the largest data value.",
  "all data sets, starting matrices, iteration counts", "All data and all iterations.", [f"{CM}:_cmeans0", f"{RL}:rl_fuzzy_cmeans"])
p("C65","Nearer centre, larger membership",
  "After a c-means step (m>1) a point belongs to a cluster at least as much as to any cluster whose centre is further away from it.",
  "all data sets and memberships", "All data.", [f"{CM}:_cmeans0", f"{LU}:normalize_power_columns"])
p("C66","When robust c-means fails",
  "rl_fuzzy_cmeans (max_iter>=2, exact arithmetic) succeeds exactly when there are at least two data points; with one or none it raises ZeroDivisionError.",
  "all data sets", "All data and iterations.", [f"{RL}:rl_fuzzy_cmeans", f"{RL}:__update_r3"])
p("C67","Nearest-centre labels",
  "RlFuzzyCmeans.predict gives every point the position of a nearest centre, the first one on ties.",
  "all points and non-empty centre lists", "All lists.", [f"{RL}:predict"])
p("C68","load_dataset reads a csv file completely or not at all",
  "One row of another length than the header makes load_dataset raise 'Unknown dataset format'. With different column names, complete rows and hashable values it loads every row (without repetitions), each field evaluated as a Python literal where possible. It should load any such file, but a file without a 'class' column and without any literal raises KeyError('') (refuted).",
  "all csv files and all behaviours of ast.literal_eval", "All inputs.", [f"{UI}:load_dataset"])
p("C69","Concepts only notice what can reach them",
  "If there is no chain of relations from concept j to concept c, the initial value of j has no effect on c: two runs from maps that differ only in j's initial value record the same values for c, step by step, as long as both run. More generally a set of concepts without relations from outside evolves on its own.",
  "all maps, concepts, values and run lengths, any number type", "All graphs and all steps.", [f"{FC}:__iterative_inference"])
p("C70","Monotone maps",
  "If all weights are non-negative and every activation function is non-decreasing, starting from larger values never gives smaller values later, and a run whose first step decreases no value never decreases any. All activation functions but fuzzy are non-decreasing for suitable arguments; gceq with its default argument is not.",
  "all such maps, starting values, run lengths (exact arithmetic)", "Comparison of all pairs of runs.", [f"{FC}:__iterative_inference", f"{FN}:Activation"])
p("C71","Redundant parts of a map have no effect",
  "Adding an unconnected concept does not change the values recorded for the others; adding a relation of weight 0 changes nothing, in particular it makes no run fail; two relations between the same concepts act exactly like one with the summed weight (iterative engine).",
  "all maps, weights, run lengths (exact arithmetic for the last two)", "All maps.", [f"{FC}:add_concept", f"{FC}:add_relation", f"{FC}:__iterative_inference"])
p("C72","Contracting maps settle",
  "If (steepness of the activation function) x (sum of absolute incoming weights, plus memory) is at most q for every concept, two runs of the map differ by at most q^k times the initial difference after k steps, and the k-th step is at most q^k times the first. With stop_at_stabilize such a run stops at most extra_steps steps after that bound has fallen below stability_diff.",
  "all such maps, starting values, run lengths (exact arithmetic)", "Convergence of all runs.", [f"{FC}:__iterative_inference", f"{FC}:__keep_execution", f"{FN}:Activation"])
p("C73","When inference raises",
  "On a map whose concepts all have a next value for every input (true of every activation function but fuzzy when called with its own arguments), run_inference (iterative engine) never raises - except, with decision EXITED, when exactly extra_steps steps were made: then it raises ValueError (refuted for maps at rest and for max_iterations=2).",
  "all maps built through the API, all settings", "All maps and run lengths.", [f"{FC}:run_inference", f"{FN}:Decision.exited"])
p("C74","Saved and loaded maps infer alike",
  "If a map can be stored as JSON without loss (see C34) and its concepts still have their starting values, then the map loaded from its JSON runs exactly when the original runs, and records the same values at every step and decides the same. A map saved after a run restarts from the values of that run instead of its starting values (refuted).",
  "all such maps, any number type", "All maps and all run lengths.", [f"{LO}:from_json", f"{FC}:to_json", f"{FC}:run_inference"])
p("C75","Predictions are labels seen in training",
  "After a successful fit, predict returns a column only for discrete targets, one label per row, and each label is one of the values of the training column: text targets give texts of the column (unless they consist of digits only), non-negative integer targets with fewer than ten values give integers of the column.",
  "all training frames, test frames, settings and earlier uses of the estimator, readable column names and values", "All data sets.", [f"{ES}:predict", f"{AS}:AssociationBasedFCM"])
p("C76","When predict succeeds",
  "After fitting discrete columns with a decision other than EXITED and an activation function called with its own arguments, predict does not raise for any frame whose columns were known in training; the vectorized engine also needs max_it >= 2 and data that is not empty.",
  "all training and test frames with readable names and values, any number type", "All data sets.", [f"{ES}:predict"])
p("C77","When fit succeeds",
  "fit does not raise on discrete columns of equal length and different names if its measures are defined on all counts; in exact arithmetic each of the eight measures of class Relation will do, because every value of a discrete column occurs in it.",
  "all frames of discrete columns; any earlier use of an estimator with the iterative engine, or with the vectorized one and max_it >= 2", "All data sets and measures.", [f"{ES}:fit", f"{AS}:AssociationBasedFCM", f"{LU}:Relation"])
p("C78","Continuous targets are not predicted",
  "predict returns no column for a continuous target, hence score never returns a number for it; if it is the first target score raises KeyError with its name.",
  "all training and test frames with readable names and values", "All data sets.", [f"{ES}:predict", f"{ES}:score"])
p("C79","Features and targets of the same name",
  "Labels predicted for a target should come from the target's training column. When a feature has the same name the labels come from the feature's column instead, and nothing is predicted under the renamed target (refuted with a witness scoring 0).",
  "all training frames sharing a name", "All data sets.", [f"{ES}:fit", f"{ES}:predict"])
p("C80","fit_inclination has no effect",
  "Two estimators that differ only in fit_inclination give the same results for every sequence of fit, predict and score calls.",
  "all settings, call sequences, data", "All call sequences.", [f"{ES}:__init__", f"{AS}:build_fcm"])
p("C81","Kinds of input",
  "Lists of rows and arrays are treated as frames whose columns are numbered, features first and targets after them, so no name occurs twice; fit refuses dictionaries and one-dimensional features with AttributeError or IndexError, although predict takes dictionaries. A Series or a dictionary of equally long lists stands for the frame with these columns as target; anything else is refused and leaves the estimator unchanged. A frame whose column names collide with the numbers given to an array target mixes both up (refuted).",
  "all inputs of these kinds", "All inputs.", [f"{ES}:fit", f"{ES}:predict", f"{ES}:score"])
p("C82","What set_concept_properties changes",
  "A successful set_concept_properties changes only that concept, and neither its value nor its relations; given properties take effect, the points of a fuzzy description are sorted and rescaled. Properties that are not given should be kept, and a call that raises should change nothing; but memory and function are reset to those of the map, and a raising call may already have changed activity, excitation and type (both refuted).",
  "all maps, concepts and arguments, any number type with a total order", "All maps and arguments.", [f"{FC}:set_concept_properties"])
p("C83","What add_concept does",
  "A successful add_concept creates the concept with value 0, history [0] and no relations, takes the given properties and for the others those of the default concept, and changes no other concept, relation or setting. It succeeds for known names and non-empty descriptions. An unknown type should be refused but is replaced by the default one (refuted).",
  "all maps and arguments, any number type with a total order", "All maps and arguments.", [f"{FC}:add_concept"])
p("C84","Default properties of concepts",
  "set_default_concept_properties changes nothing but the default, and a concept added afterwards without arguments has the chosen properties. Accepted defaults should be usable, but the regression type without a description makes every such add_concept raise KeyError (refuted); a chosen function should be kept like one given to add_concept, but is replaced when the map's function changes (refuted).",
  "all maps and arguments, any number type with a total order", "All maps and arguments.", [f"{FC}:set_default_concept_properties", f"{FC}:add_concept"])
p("C85","When vectorized inference succeeds",
  "When every concept has a next value for any input, a vectorized run leaves histories of one common length below max_iter; with a decision other than EXITED it succeeds exactly when max_iter >= 2 and the first concept does not start at 2.0, with EXITED it also raises when exactly extra_steps + 1 values were recorded. The outcome should not depend on the order of the concepts or on the engine, but 2.0 marks the end of the results (refuted).",
  "all maps built through the interface and all callable activation functions, any number type", "All maps.", [f"{FC}:run_inference", f"{FC}:__vectorized_inference"])
p("C86","Advertised function names",
  "The names returned by get_function_names should be exactly those that get_by_name and the map accept. This holds for decisions; among activations \"proportion\" is advertised but refused and \"fuzzy\" accepted but not advertised, and the excitation \"MEAN\" is advertised but refused (refuted). Both activation tables (callables and constants of the vectorized engine) know the same names.",
  "all names, all maps", "All strings.", [f"{FN}:Activation.get_function_names", f"{FN}:Excitation.get_function_names", f"{FN}:Decision.get_function_names"])
p("C87","What plot_execution draws",
  "plot_execution draws, for every selected concept once, the beginning of its history: limit values if 0 < limit < length, else all of it. For a concept type or \"target\" these are the concepts get_final_state returns, in that order. The two methods should share the name for everything, but it is \"all\" for one and \"any\" for the other (refuted).",
  "all maps built through the interface, all limits, names and types, any number type", "All maps.", [f"{FC}:plot_execution", f"{FC}:get_final_state"])
p("C88","What plot_topology draws",
  "The drawn graph has the concepts as vertices and exactly one undirected edge for each pair of concepts related in some direction, provided no concept was added twice and no relation call raised. After adding a concept again its relations are missing although inference still uses them (refuted).",
  "all call sequences, any number type", "All call sequences.", [f"{FC}:plot_topology", f"{FC}:add_relation"])
p("C89","fuzzyfication",
  "For increasing values, Fuzzy.fuzzyfication returns the stored membership at a stored value and interpolates linearly between neighbours less than 1 away; with no stored value less than 1 below it returns the smallest membership, else with none less than 1 above the largest. Outside the stored values it should keep the membership of the nearest one like the fuzzy activation function, but does not (refuted).",
  "all real values, scales and descriptions with memberships in [-1,1]", "All reals.", [f"{FN}:Fuzzy.fuzzyfication", f"{FN}:Activation.fuzzy_set"])
p("C90","estimate_clusters by method name",
  "estimate_clusters runs the method of that name for the three supported names. For other names, or without a clustering function, it warns that gap concentration is used instead, but returns one cluster and no description (refuted).",
  "all names and data, any number type", "All names and data.", [f"{CE}:estimate_clusters"])
p("C91","Order of the training rows",
  "Reordering the training rows (the same way in all columns) changes nothing: if fit succeeds it also succeeds on the reordered rows, makes the same map, and all later predictions and scores are the same. The discretization of continuous columns depends on which values occur only.",
  "all data with columns of one length, all row orders, all settings of the generator; real arithmetic", "All data sets.", [f"{ES}:fit", f"{AS}:build_fcm", f"{LU}:calc_concepts_coefficient", f"{DI}:fuzzy_feature_discretization"])
p("C92","Repeating the training rows",
  "Training on every row k times should be training on every row once. This holds with measures that only depend on proportions, which supp, conf, lift, bayes and simple do. It fails with rodr, odr and pos_inf; pos_inf is the estimator's default, and training on every row twice changes a predicted label (refuted).",
  "all data with columns of one length, all k and row orders; real arithmetic", "All data sets.", [f"{ES}:fit", f"{FN}:Relation.pos_inf"])
p("C93","Perfectly separated data is learned",
  "If every column of the training data (texts, or integers with fewer than ten values) determines every other column, fitting succeeds and the estimator predicts the class of every training row correctly from any selection of the feature columns; the score is 1. This holds with support as evaluation function, a threshold below the share of every value, confidence or positive influence as causality function, an activation function that tells inputs apart, LAST or MEAN, and both engines (vectorized with MEAN: if nothing is written beyond the result matrix). The estimator's defaults qualify for maps of fewer than 124 concepts. It should hold with any threshold, max_iter and extra_steps, but does not (refuted).",
  "all such data, all selections of rows and columns, any use of the estimator before; real arithmetic", "All such data sets.", [f"{ES}:fit", f"{ES}:predict", f"{ES}:score", f"{AS}:build_fcm", f"{AS}:get_inference_result"])
p("C94","Maps with a rectifying activation function learn every class their features determine",
  "If each single column of the training data (texts, or integers with fewer than ten values) determines the classes, then with biestate, saturation or relm (lambda > 0) as activation function, KOSKO excitation, support as evaluation function, a threshold below the share of every value, a causality function that favours implications (support, confidence, lift, rodr, positive influence or simple), exclusion at most 0, and MEAN, or LAST with memory, the estimator predicts the right class for every row each of whose cells occurred in training with that class - also for rows that did not occur themselves; in both engines (vectorized with MEAN: if nothing is written beyond the result matrix). The class need not determine the features. It should hold for LAST without memory, for PAPAGEORGIUS, for bayes and for a positive exclusion too, but does not (refuted).",
  "all such data, all rows of known cells, any use of the estimator before; real arithmetic", "All such data sets.", [f"{ES}:fit", f"{ES}:predict", f"{AS}:build_fcm", f"{AS}:get_inference_result"])
p("C95","Fuzzy c-means on points with any number of coordinates",
  "On data with one column the general algorithms (c-means, robust c-means, prediction) give exactly what the one-column theorems are about. For any number of coordinates a step succeeds (m other than 1) and gives a fuzzy partition and one centre per cluster, each in the convex hull of the data; a run of cmeans with maxiter >= 2 succeeds and stops because the partition has settled or after maxiter - 1 steps; for m > 1 a point's membership in the nearer of two clusters is at least that in the other.",
  "all data with at least one point, all numbers of coordinates and clusters, all initial partitions; real arithmetic", "The clusters found describe the data.", [f"{CM}:cmeans", f"{CM}:fuzzy_cmeans", f"{RL}:rl_fuzzy_cmeans"])
p("C96","Robust c-means and class RlFuzzyCmeans on points with any number of coordinates",
  "With max_iter >= 2 robust c-means succeeds exactly on two or more points (ZeroDivisionError otherwise); it gives between 1 and n clusters, cluster shares that add up to 1, a partition of every point and centres in the convex hull of the data. fit stores such centres, or raises and leaves the object as it was; predict gives for every point the first of its nearest centres, and raises TypeError on an object that was never fitted.",
  "all data, all numbers of coordinates; real arithmetic", "Fitting and predicting with the class fit together.", [f"{RL}:rl_fuzzy_cmeans", f"{RL}:RlFuzzyCmeans"])
p("C97","C-means lowers its objective",
  "For m > 1: each centre of a step minimises the weighted sum of squared distances among all points, for the memberships it was computed from; the memberships of each point minimise its part of the objective among all positive memberships with sum 1, for the distances they were computed from; so the objective does not grow from a step to the next when no distance or membership is limited by the machine epsilon. In every run it grows per step by at most c*n*(eps^2 + (eps^2 + eps^m)*D^2), D being the largest distance of two data points.",
  "all data, numbers of coordinates and clusters, all initial partitions, all steps; real arithmetic", "This is what c-means is for.", [f"{CM}:_cmeans0", f"{CM}:cmeans"])
p("C98","Clustering does not depend on the position of the data",
  "Moving or rotating the data (any affine map that keeps distances, also into a space of more coordinates) moves the centres found by c-means and robust c-means with it and changes nothing else: memberships, distances, objective history, number of steps, shares and exceptions are the same. Fitting RlFuzzyCmeans and predicting labels the same points alike.",
  "all data, all distance-preserving affine maps, all initial partitions; real arithmetic", "Clusters are a matter of distances only.", [f"{CM}:cmeans", f"{RL}:rl_fuzzy_cmeans", f"{RL}:RlFuzzyCmeans"])
p("C99","Behaviour over time in the vectorized engine",
  "What holds for runs of the iterative engine should hold for the vectorized one (the default), for maps on which both make the same steps: values stay in the range of the activation functions; concepts not reachable from a concept never notice its initial value; with non-negative weights and increasing functions, larger starts give larger values and a run that starts upwards keeps climbing; with contracting maps two runs approach each other geometrically, steps shrink, and the run stops once the number of concepts times the bound on the steps is below stability_diff. At the iteration limit it fails: the first recorded value is another concept's, and the final value of a concept then depends on concepts it is not connected with (refuted).",
  "all maps reachable through the public interface that are regular (active concepts, no duplicate relations) and whose functions give results; all runs; real arithmetic", "All maps run with the default engine.", [f"{FC}:run_inference", f"{FC}:__vectorized_inference"])
p("C100","Continuous columns end to end",
  "With any of the four strategies, and whatever curve and random start numpy supplies, a column with at least ten different numbers is cut into at least two clusters (at most seven unless the robust algorithm chose), described by increasing values that include all the data and one row of degrees in [0,1] per cluster; read back at the training data no cluster is empty and the degrees of a value add up to at most 1, and to exactly 1 unless there are three clusters. So fitting columns of one length succeeds exactly if every column of numbers is taken as levels or has ten different numbers, hence always with the default settings; the weights lie in [-1,1] with confidence, and the order of the rows is irrelevant.",
  "all data with columns of one length, all strategies, measures, curves and random starts; real arithmetic", "Users with continuous features need no assumption about the discretization.", [f"{DI}:fuzzy_feature_discretization", f"{CE}:estimate_clusters", f"{AS}:build_fcm", f"{ES}:fit"])
p("C101","Predicting with continuous features",
  "After fitting data with continuous columns (any of the four strategies) the estimator should predict every frame of known columns. With the vectorized engine (the default) and max_iter >= 2 it always does, and can be fitted again. In the iterative engine it does so exactly if no cluster has incoming weights that sum to 0 (with extra_steps >= 2); with a non-zero exclusion value, no double relations, no relations between features and no continuous target this never happens, so prediction always succeeds. With exclusion value 0 and the same settings it always happens: every prediction raises (refuted).",
  "all data, all frames to predict, all strategies, curves and random starts, any use of the estimator before; real arithmetic", "Predicting is what the estimator is for.", [f"{ES}:predict", f"{AS}:get_inference_result", f"{AS}:init_concept_by_feature_data", f"{FC}:__iterative_inference", f"{FC}:__vectorized_inference"])
p("C102","Names of concepts do not matter",
  "Calling the same methods with other names for the concepts (different ones for different concepts) gives the same map under the other names: every call ends the same way up to the name in the error message, and values, histories, relations, settings, final states and the saved document are the same up to the names. A document with other names loads as the same map with other names.",
  "all call sequences, documents and injective renamings; both engines; any number type", "Nothing depends on how concepts are called or on how names compare.", [f"{FC}:FuzzyCognitiveMap", f"{FC}:to_json", f"{LO}:from_json"])
p("C103","Zero point of a continuous feature",
  "Measuring continuous features from another zero point should leave the names of the concepts, all relations and every prediction as they were. It does if each moved column has a value at most 0 before and after, and every value to predict from is a training value or nonnegative before and after. It does not for a column of positive numbers, nor for new negative values (refuted).",
  "real settings, data and estimators, any number of test frames; refuted with rational data for the other cases", "The origin of a scale is a convention; the scaled values of a positive column and the interpolation with the absolute value depend on it.", [f"{FC}:__process_activation_dict", f"{FN}:fuzzy_set", f"{AS}:FuzzyAssociation", f"{DI}:fuzzy_feature_discretization"])
p("C104","Order in which a map is built",
  "Adding the same concepts and relations in another order (each relation after its concepts) should give the same histories and final values, also in the vectorized engine (the default). It does in the iterative engine. It does in the vectorized engine if no pair is related twice, no concept can take the value 2 and the run ends before the iteration limit. It does not at the limit, nor with a pair related twice (refuted).",
  "all call lists and their reorderings, all maps; real arithmetic, rational witnesses for the refuted cases", "The order of the calls carries no meaning.", [f"{FC}:add_concept", f"{FC}:add_relation", f"{FC}:__vectorized_inference", f"{FC}:__iterative_inference"])
p("C105","Order of the columns",
  "The order of the columns of the training data should not matter: fitting succeeds in every order with the same concepts, relations and features, and the predictions are the same. They are in the iterative engine, and in the vectorized engine as long as no run reaches the iteration limit; at the limit the default engine predicts other labels when two feature columns are exchanged (refuted). The order of the columns of the data to predict never matters, in either engine, for the answer and for exceptions.",
  "all readable data, all orders of the columns, all settings of the generator; real arithmetic, any number type for the data to predict", "Columns are found by name.", [f"{ES}:fit", f"{ES}:predict", f"{AS}:build_fcm", f"{AS}:get_inference_result", f"{FC}:__vectorized_inference"])
p("C106","Names of features and values",
  "The names of the features and of the values in text columns should not matter: after renaming them (no two names becoming one, names with and without the separator staying so) fit ends in the same way, the map is the same up to the names of its concepts, every later prediction is the same up to the names, and the score is the same. This holds, in both engines, if the values of each column keep their alphabetical order (and, for the score, texts of digits stay texts of digits). Without the order it does not: of two equally activated classes the alphabetically first is predicted, so renaming a class changes the answer (refuted).",
  "all readable data, all injective renamings, all settings, all test data; any number type", "Names are labels for people; the code splits and sorts them.", [f"{AS}:build_fcm", f"{AS}:init_concept_by_feature_data", f"{AS}:get_inference_result", f"{ES}:fit", f"{ES}:predict", f"{ES}:score"])
p("C107","Unit of a continuous feature",
  "Measuring continuous features in other units should leave the memberships, the names of the concepts, all relations and every prediction as they were, and move the centres into the new unit. It does for the strategies built on c-means if no centre comes closer to a value than eps in either unit, and for values to predict from that are nonnegative, training values, or of a feature trained with a number outside [0, 1] in both units. It does not for the strategy rl-cmeans, nor in tiny units, where all distances are raised to eps, nor for negative values of a feature trained between 0 and 1 (refuted).",
  "real settings, data and estimators, any positive factor per feature, any number of test frames; real and rational witnesses for the refuted cases", "A unit is a convention; metres or centimetres should give the same classifier.", [f"{DI}:fuzzy_feature_discretization", f"{CM}:cmeans", f"{RL}:compute_u", f"{FC}:__process_activation_dict", f"{FN}:fuzzy_set", f"{AS}:FuzzyAssociation"])
p("C108","Maps with finitely many states repeat",
  "If every concept can only take values from a list of b values (biestate: 2, threestate: 3), a map of n concepts is in a state it was in before after at most b^n + 1 steps and repeats itself from then on, with a fixed period. So a run either ends within b^n + extra steps or goes on to the iteration limit.",
  "all sane maps, all value lists, any number type; iterative engine", "The number of states grows exponentially; that every long run has a period is a pigeonhole argument over all maps.", [f"{FC}:__iterative_inference", f"{FC}:__keep_execution", f"{FC}:is_stable", f"{FN}:bistate", f"{FN}:threestate"])
p("C109","Positive and negative activation",
  "A map of odd functions (sigmoid_hip, the default, while its argument is not clipped; gceq with a low enough weight) should treat positive and negative activation alike: opposite starts give opposite histories and opposite final values. They do in the iterative engine for LAST and MEAN, and the recorded values do in the vectorized engine. They do not for the decision EXITED, which takes the maximum, nor with PAPAGEORGIUS concepts (refuted). A map of functions that are 0 at 0 and started at 0 stays at 0 in both engines.",
  "all sane maps, all opposite starts; real arithmetic, rational witnesses for the refuted cases", "A relation between two runs of every map from every start.", [f"{FC}:__iterative_inference", f"{FC}:__vectorized_inference", f"{FN}:sigmoid_hip", f"{FN}:greater_cond_equality", f"{FN}:exited"])
p("C110","Boolean and float-valued discrete features",
  "A discrete feature should influence the prediction whatever the type of its column; in particular a feature that determines the class should be learned. A boolean feature (or floats taken as discrete values) never does: its concepts are called True and False (or 1.0) in training, while predicting looks for 1 and 0, so its values are never found (refuted; the same data as texts or integers is learned). More generally a row in which no value is known from training is given the alphabetically first class, whatever was trained, for every activation function that is 0 at 0 (all but sigmoid and fuzzy) in both engines.",
  "all readable data, all settings of the generator, all frames to predict, both engines; real arithmetic, rational witnesses for the refuted part", "The answer does not depend on the training rows at all, which a test of one model cannot show.", [f"{AS}:init_concept_by_feature_data", f"{AS}:build_fcm", f"{AS}:get_inference_result", f"{ES}:predict"])
p("C111","Joining copies, and joining step by step",
  "Joining any number of copies of a map should give the map back: with names that can be joined and no pair related twice it is saving and loading the map, whatever the strategies and also when that fails, so a map that can be saved and loaded comes back with the same concepts, relations, values and settings. With a pair related twice it does not (refuted). Joining some of the maps first and the result with the others should be the same as joining all: it is for highest and lowest; it is not for average (the mean of means), nor with ignore_zeros (refuted).",
  "all reachable maps, any number of copies and maps, all strategies; averages in real arithmetic, the rest for any number type; rational witnesses for the refuted parts", "Algebraic laws over all maps and all ways to split a list of maps.", [f"{LO}:join_maps", f"{LO}:from_json", f"{FC}:to_json"])
p("C112","The behaviour of joined concepts",
  "join_maps documents that all nodes and the joined map get the default behaviour. They do not (refuted): the joined map has the first map's settings, and a concept comes from the first map having it and keeps its type and a function other than that map's default one, with the arguments. A concept with its map's default function should keep that function; it does if all maps have the same default function, otherwise it gets the default function and arguments of the first joined map (refuted).",
  "all non-empty lists of reachable maps, all strategies, any number type; rational witnesses for the refuted parts", "Which of unboundedly many maps a concept's function comes from.", [f"{LO}:join_maps", f"{LO}:from_json", f"{FC}:to_json"])
p("C113","Fuzzy silhouette",
  "The fuzzy silhouette of a clustering is the mean of the silhouettes of the points weighted by the squared difference of their two largest memberships; a point's silhouette is the relative difference of its mean distances to these two clusters and lies strictly between -1 and 1, and so does the score. The smallest number of clusters with the highest score is selected if that score is positive, otherwise none. The silhouette of a point should not depend on the numbering of the clusters. It does not if its memberships are pairwise different; with equal memberships it does (refuted).",
  "all real columns with at least two different values, all maximal numbers of clusters and initial memberships, all iteration limits of at least two; rational witness for the refuted part", "Arbitrary data, memberships and cluster counts; ties are hit by almost no random input.", [f"{CE}:fuzzy_silhouette", f"{CE}:estimate_clusters"])
p("C114","The class with the most votes",
  "After training on columns of texts or few-valued integers with relations from features to classes only, a row of known cells should get the class value with the largest sum of votes, where the vote of a cell for a class value is the causality of the cell for that value, computed from the numbers of training rows with both, one, and none of them. It does with saturation, MEAN, excitation other than PAPAGEORGIUS, support as evaluation function and exclusion at most 0, whenever the winner's sum is positive and all others are smaller and below 1, in both engines (vectorized: if nothing is written beyond the result matrix). In particular a row with a single column gets the class value that occurs most often with its value, if the causality is confidence or support and the two occur together in more than the threshold share of the rows. It does not if two sums reach 1, and the most frequent class is not predicted with positive influence, the estimator's default causality function, nor with LAST, nor with PAPAGEORGIUS (refuted).",
  "all such data, all rows of known cells, any use of the estimator before; real arithmetic; rational witnesses for the refuted parts", "All data sets and all causality functions.", [f"{ES}:fit", f"{ES}:predict", f"{AS}:build_fcm", f"{AS}:get_inference_result"])
p("C115","Changing the weights",
  "Raising weights and starting values should never lower a recorded value. It never does if all weights are non-negative, all functions non-decreasing and no concept sends out a negative value; it does if one sends out a negative value, in particular for PAPAGEORGIUS concepts with values below 1/2 (refuted). If one step of the map contracts by q and the changes of the weights move its result by at most e, the values after k steps differ by at most q^k times the difference of the starts plus e (1 + q + ... + q^(k-1)), which is at most e / (1 - q) for equal starts. Multiplying all weights of a map of biestate concepts by the same positive number should change nothing; it changes nothing if no concept uses memory, otherwise it does (refuted).",
  "all pairs of sane maps that differ in weights and values only, all starts, both engines (vectorized: positions not overwritten by a write beyond the result matrix); real arithmetic, rational witnesses for the refuted parts", "A relation between the runs of two maps, for every number of steps.", [f"{FC}:__iterative_inference", f"{FC}:__vectorized_inference", f"{FC}:add_relation", f"{FN}:bistate"])
p("C116","Combined fuzzy entropy",
  "The combined fuzzy entropy of a clustering is half the sum of a separation divided by the undecidedness of the memberships, and a part comparing the distances between and within the clusters. The separation of two clusters lies between 0 and the number of points and is 0 between a cluster and itself, the undecidedness lies in (0, 1], the score is never negative and does not depend on the numbering of the clusters. The smallest number of clusters with the highest score is selected if that score is positive, otherwise none. A clustering should score higher if the points are closer to the centres of the clusters they belong to. It does not (refuted): the distances are taken from the centre to the whole data, not point by point, so the last part equals b (n - c) / ((c - 1) n (s + b)), with s the spread of the data and b that of the centres, and stays below 1 / (c - 1) for every clustering.",
  "all real columns, all numbers of clusters up to the number of values, all initial memberships, all iteration limits of at least two", "Inequalities over all memberships, and an algebraic identity behind the score.", [f"{CE}:cfe", f"{CE}:__fuzzy_cross_entropy", f"{CE}:estimate_clusters"])
p("C117","Clusters that start alike",
  "Fuzzy c-means cannot separate clusters that start alike: two clusters with the same initial memberships end with the same centre, memberships and distances, whatever the data and the number of steps. If all clusters start alike every centre is the mean of the data and every membership 1/c, the combined fuzzy entropy of every number of clusters is 0, and no number of clusters is selected.",
  "all data, numbers of clusters, exponents other than 1, initial memberships and limits; two clusters: any number type; all clusters: real arithmetic", "A test with random starts never meets such a start.", [f"{CM}:cmeans", f"{CM}:_cmeans0", f"{CE}:cfe"])
p("C118","Numbering of the clusters",
  "Fuzzy c-means does not depend on how the clusters are numbered: reordering the rows of the initial memberships only reorders the clusters found, with every centre, its memberships and its distances moving together. The objective values, the number of steps and the partition coefficient stay the same. So do the combined fuzzy entropy of every number of clusters and the number of clusters selected by it.",
  "all data with at least one point, numbers of clusters, exponents other than 1, limits of at least 2 steps, initial memberships (given or drawn) and reorderings of them; real arithmetic", "A test compares one pair of starts, and needs both runs to draw the same numbers.", [f"{CM}:cmeans", f"{CM}:_cmeans0", f"{CE}:cfe"])
open("/verif/properties.jsonl","w").write("".join(json.dumps(x)+"\n" for x in P))
print(len(P))
