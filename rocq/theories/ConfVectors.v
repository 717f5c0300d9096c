(** ConfVectors.v — inputs and expected results copied from /repo/tests (test_fcm.py
    and test_public_library_functions.py), as the values json.loads gives. *)
From Coq Require Import Floats.
From Verif Require Import Base Num Functions Fcm Loader FloatNum.
Set Warnings "-inexact-float".
Local Open Scope string_scope.

(** test_fcm.py 43 *)
Definition x_default_and_to_json : json float :=
  (JObj [("max_iter", (JInt (200))); ("decision_function", (JStr "MEAN")); ("activation_function", (JStr
"sigmoid_hip")); ("memory_influence", (JBool false)); ("stability_diff", (JNum 0.001%float)); ("stop_at_stabilize",
(JBool true)); ("extra_steps", (JInt (5))); ("weight", (JInt (1))); ("concepts", (JArr [])); ("relations", (JArr
[]))]).
(** test_fcm.py 59 *)
Definition x_set_map_fuctions : json float :=
  (JObj [("max_iter", (JInt (200))); ("decision_function", (JStr "LAST")); ("activation_function", (JStr "sigmoid"));
("activation_function_args", (JObj [("lambda_val", (JInt (10)))])); ("memory_influence", (JBool false));
("stability_diff", (JNum 0.001%float)); ("stop_at_stabilize", (JBool true)); ("extra_steps", (JInt (5))); ("weight",
(JInt (1))); ("concepts", (JArr [])); ("relations", (JArr []))]).
(** test_fcm.py 78 *)
Definition x_concept_addition_default : json float :=
  (JArr [(JObj [("id", (JStr "test")); ("is_active", (JBool true)); ("type", (JStr "SIMPLE")); ("activation", (JNum
0.0%float))])]).
(** test_fcm.py 91 *)
Definition x_concept_redefinition : json float :=
  (JArr [(JObj [("id", (JStr "test")); ("is_active", (JBool true)); ("type", (JStr "SIMPLE")); ("activation", (JNum
0.0%float))])]).
(** test_fcm.py 104 *)
Definition x_concept_addition_custom_values : json float :=
  (JArr [(JObj [("id", (JStr "test")); ("is_active", (JBool false)); ("type", (JStr "DECISION")); ("activation",
(JNum 0.0%float)); ("use_memory", (JBool true)); ("custom_function", (JStr "gceq")); ("custom_function_args", (JObj
[("weight", (JNum 0.3%float))]))])]).
(** test_fcm.py 114 *)
Definition x_concept_addition_with_default_definition : json float :=
  (JArr [(JObj [("id", (JStr "test")); ("is_active", (JBool true)); ("type", (JStr "DECISION")); ("activation", (JNum
0.0%float)); ("use_memory", (JBool true)); ("custom_function", (JStr "gceq")); ("custom_function_args", (JObj
[("weight", (JNum 0.3%float))]))])]).
(** test_fcm.py 126 *)
Definition x_concept_property_update0 : json float :=
  (JArr [(JObj [("id", (JStr "test")); ("is_active", (JBool true)); ("type", (JStr "SIMPLE")); ("activation", (JNum
0.0%float))])]).
(** test_fcm.py 134 *)
Definition x_concept_property_update1 : json float :=
  (JArr [(JObj [("id", (JStr "test")); ("is_active", (JBool false)); ("type", (JStr "DECISION")); ("activation",
(JNum 0.0%float)); ("use_memory", (JBool true)); ("custom_function", (JStr "gceq")); ("custom_function_args", (JObj
[("weight", (JNum 0.3%float))]))])]).
(** test_fcm.py 142 *)
Definition x_relation_addition : json float :=
  (JArr [(JObj [("origin", (JStr "test")); ("destiny", (JStr "test_1")); ("weight", (JNum 0.5%float))])]).
(** test_fcm.py 154 *)
Definition x_clear_all : json float :=
  (JObj [("max_iter", (JInt (200))); ("decision_function", (JStr "MEAN")); ("activation_function", (JStr
"sigmoid_hip")); ("memory_influence", (JBool false)); ("stability_diff", (JNum 0.001%float)); ("stop_at_stabilize",
(JBool true)); ("extra_steps", (JInt (5))); ("weight", (JInt (1))); ("concepts", (JArr [])); ("relations", (JArr
[]))]).
(** test_fcm.py 175 *)
Definition x_inference_default : json float :=
  (JArr [(JObj [("id", (JStr "result_1")); ("is_active", (JBool true)); ("type", (JStr "DECISION")); ("activation",
(JNum 0.056969360711939906%float))]); (JObj [("id", (JStr "result_2")); ("is_active", (JBool true)); ("type", (JStr
"DECISION")); ("activation", (JNum (-0.06113548755394814)%float))]); (JObj [("id", (JStr "input_1")); ("is_active",
(JBool true)); ("type", (JStr "SIMPLE")); ("activation", (JNum 0.05%float))]); (JObj [("id", (JStr "input_2"));
("is_active", (JBool true)); ("type", (JStr "SIMPLE")); ("activation", (JNum 0.034888503362331805%float))]); (JObj
[("id", (JStr "input_3")); ("is_active", (JBool true)); ("type", (JStr "SIMPLE")); ("activation", (JNum
0.09792163723261006%float))]); (JObj [("id", (JStr "input_4")); ("is_active", (JBool true)); ("type", (JStr
"SIMPLE")); ("activation", (JNum (-0.034888503362331805)%float))]); (JObj [("id", (JStr "input_5")); ("is_active",
(JBool true)); ("type", (JStr "SIMPLE")); ("activation", (JNum (-0.05)%float))])]).
(** test_fcm.py 256 *)
Definition x_inference_sigmoid : json float :=
  (JArr [(JObj [("id", (JStr "result_1")); ("is_active", (JBool true)); ("type", (JStr "DECISION")); ("activation",
(JNum 0.5994700184028905%float))]); (JObj [("id", (JStr "result_2")); ("is_active", (JBool true)); ("type", (JStr
"DECISION")); ("activation", (JNum 0.5755041378442186%float))]); (JObj [("id", (JStr "input_1")); ("is_active",
(JBool true)); ("type", (JStr "SIMPLE")); ("activation", (JNum 0.5%float))]); (JObj [("id", (JStr "input_2"));
("is_active", (JBool true)); ("type", (JStr "SIMPLE")); ("activation", (JNum 0.44379910825937535%float))]); (JObj
[("id", (JStr "input_3")); ("is_active", (JBool true)); ("type", (JStr "SIMPLE")); ("activation", (JNum
0.7851790048472618%float))]); (JObj [("id", (JStr "input_4")); ("is_active", (JBool true)); ("type", (JStr
"SIMPLE")); ("activation", (JNum 0.3963131391906254%float))]); (JObj [("id", (JStr "input_5")); ("is_active", (JBool
true)); ("type", (JStr "SIMPLE")); ("activation", (JNum 0.4%float))])]).
(** test_fcm.py 277 *)
Definition x_inference_biestate : json float :=
  (JArr [(JObj [("id", (JStr "result_1")); ("is_active", (JBool true)); ("type", (JStr "DECISION")); ("activation",
(JNum 0.2%float))]); (JObj [("id", (JStr "result_2")); ("is_active", (JBool true)); ("type", (JStr "DECISION"));
("activation", (JNum 0.0%float))]); (JObj [("id", (JStr "input_1")); ("is_active", (JBool true)); ("type", (JStr
"SIMPLE")); ("activation", (JNum 0.05%float))]); (JObj [("id", (JStr "input_2")); ("is_active", (JBool true));
("type", (JStr "SIMPLE")); ("activation", (JNum 0.12%float))]); (JObj [("id", (JStr "input_3")); ("is_active", (JBool
true)); ("type", (JStr "SIMPLE")); ("activation", (JNum 0.3%float))]); (JObj [("id", (JStr "input_4")); ("is_active",
(JBool true)); ("type", (JStr "SIMPLE")); ("activation", (JNum (-0.02)%float))]); (JObj [("id", (JStr "input_5"));
("is_active", (JBool true)); ("type", (JStr "SIMPLE")); ("activation", (JNum (-0.05)%float))])]).
(** test_fcm.py 299 *)
Definition x_inference_threestate : json float :=
  (JArr [(JObj [("id", (JStr "result_1")); ("is_active", (JBool true)); ("type", (JStr "DECISION")); ("activation",
(JNum 0.0625%float))]); (JObj [("id", (JStr "result_2")); ("is_active", (JBool true)); ("type", (JStr "DECISION"));
("activation", (JNum 0.0%float))]); (JObj [("id", (JStr "input_1")); ("is_active", (JBool true)); ("type", (JStr
"SIMPLE")); ("activation", (JNum 0.0625%float))]); (JObj [("id", (JStr "input_2")); ("is_active", (JBool true));
("type", (JStr "SIMPLE")); ("activation", (JNum 0.025%float))]); (JObj [("id", (JStr "input_3")); ("is_active",
(JBool true)); ("type", (JStr "SIMPLE")); ("activation", (JNum 0.125%float))]); (JObj [("id", (JStr "input_4"));
("is_active", (JBool true)); ("type", (JStr "SIMPLE")); ("activation", (JNum (-0.025)%float))]); (JObj [("id", (JStr
"input_5")); ("is_active", (JBool true)); ("type", (JStr "SIMPLE")); ("activation", (JNum (-0.0625)%float))])]).
(** test_fcm.py 320 *)
Definition x_inference_saturation : json float :=
  (JArr [(JObj [("id", (JStr "result_1")); ("is_active", (JBool true)); ("type", (JStr "DECISION")); ("activation",
(JNum 0.06%float))]); (JObj [("id", (JStr "result_2")); ("is_active", (JBool true)); ("type", (JStr "DECISION"));
("activation", (JNum 0.0%float))]); (JObj [("id", (JStr "input_1")); ("is_active", (JBool true)); ("type", (JStr
"SIMPLE")); ("activation", (JNum 0.05%float))]); (JObj [("id", (JStr "input_2")); ("is_active", (JBool true));
("type", (JStr "SIMPLE")); ("activation", (JNum 0.034999999999999996%float))]); (JObj [("id", (JStr "input_3"));
("is_active", (JBool true)); ("type", (JStr "SIMPLE")); ("activation", (JNum 0.13%float))]); (JObj [("id", (JStr
"input_4")); ("is_active", (JBool true)); ("type", (JStr "SIMPLE")); ("activation", (JNum (-0.02)%float))]); (JObj
[("id", (JStr "input_5")); ("is_active", (JBool true)); ("type", (JStr "SIMPLE")); ("activation", (JNum
(-0.05)%float))])]).
(** test_fcm.py 341 *)
Definition x_inference_gceq : json float :=
  (JArr [(JObj [("id", (JStr "result_1")); ("is_active", (JBool true)); ("type", (JStr "DECISION")); ("activation",
(JNum 0.06%float))]); (JObj [("id", (JStr "result_2")); ("is_active", (JBool true)); ("type", (JStr "DECISION"));
("activation", (JNum 0.0%float))]); (JObj [("id", (JStr "input_1")); ("is_active", (JBool true)); ("type", (JStr
"SIMPLE")); ("activation", (JNum 0.05%float))]); (JObj [("id", (JStr "input_2")); ("is_active", (JBool true));
("type", (JStr "SIMPLE")); ("activation", (JNum 0.034999999999999996%float))]); (JObj [("id", (JStr "input_3"));
("is_active", (JBool true)); ("type", (JStr "SIMPLE")); ("activation", (JNum 0.13%float))]); (JObj [("id", (JStr
"input_4")); ("is_active", (JBool true)); ("type", (JStr "SIMPLE")); ("activation", (JNum (-0.02)%float))]); (JObj
[("id", (JStr "input_5")); ("is_active", (JBool true)); ("type", (JStr "SIMPLE")); ("activation", (JNum
(-0.05)%float))])]).
(** test_fcm.py 362 *)
Definition x_inference_lceq : json float :=
  (JArr [(JObj [("id", (JStr "result_1")); ("is_active", (JBool true)); ("type", (JStr "DECISION")); ("activation",
(JNum 0.0%float))]); (JObj [("id", (JStr "result_2")); ("is_active", (JBool true)); ("type", (JStr "DECISION"));
("activation", (JNum (-0.06749999999999999)%float))]); (JObj [("id", (JStr "input_1")); ("is_active", (JBool true));
("type", (JStr "SIMPLE")); ("activation", (JNum 0.05%float))]); (JObj [("id", (JStr "input_2")); ("is_active", (JBool
true)); ("type", (JStr "SIMPLE")); ("activation", (JNum 0.02%float))]); (JObj [("id", (JStr "input_3"));
("is_active", (JBool true)); ("type", (JStr "SIMPLE")); ("activation", (JNum 0.06625%float))]); (JObj [("id", (JStr
"input_4")); ("is_active", (JBool true)); ("type", (JStr "SIMPLE")); ("activation", (JNum
(-0.034999999999999996)%float))]); (JObj [("id", (JStr "input_5")); ("is_active", (JBool true)); ("type", (JStr
"SIMPLE")); ("activation", (JNum (-0.05)%float))])]).
(** test_fcm.py 383 *)
Definition x_inference_fuzzy : json float :=
  (JArr [(JObj [("id", (JStr "r1")); ("is_active", (JBool true)); ("type", (JStr "DECISION")); ("activation", (JNum
0.4687996143920417%float))]); (JObj [("id", (JStr "r2")); ("is_active", (JBool true)); ("type", (JStr "DECISION"));
("activation", (JNum 0.4625401367231719%float))]); (JObj [("id", (JStr "c1")); ("is_active", (JBool true)); ("type",
(JStr "SIMPLE")); ("activation", (JNum 0.3%float)); ("custom_function", (JStr "threestate"))]); (JObj [("id", (JStr
"c2")); ("is_active", (JBool true)); ("type", (JStr "SIMPLE")); ("activation", (JNum 0.3%float)); ("custom_function",
(JStr "threestate"))]); (JObj [("id", (JStr "c3")); ("is_active", (JBool true)); ("type", (JStr "SIMPLE"));
("activation", (JNum 0.3%float)); ("custom_function", (JStr "fuzzy")); ("activation_dict", (JObj [("membership",
(JArr [(JNum 0.25%float); (JNum 0.5%float); (JNum 1.0%float); (JNum 0.5%float); (JNum 0.25%float)])); ("val_list",
(JArr [(JNum 1.0%float); (JNum 2.0%float); (JNum 3.0%float); (JNum 4.0%float); (JNum 5.0%float)]))]))])]).
(** test_fcm.py 431 *)
Definition x_inference_several_functions : json float :=
  (JArr [(JObj [("id", (JStr "result_1")); ("is_active", (JBool true)); ("type", (JStr "DECISION")); ("activation",
(JNum 0.0%float)); ("use_memory", (JBool true)); ("custom_function", (JStr "gceq")); ("custom_function_args", (JObj
[("weight", (JNum 0.003%float))]))]); (JObj [("id", (JStr "result_2")); ("is_active", (JBool true)); ("type", (JStr
"DECISION")); ("activation", (JNum 0.00012648385157387873%float)); ("use_memory", (JBool true)); ("custom_function",
(JStr "sigmoid")); ("custom_function_args", (JObj [("lambda_val", (JInt (10)))]))]); (JObj [("id", (JStr "input_1"));
("is_active", (JBool true)); ("type", (JStr "SIMPLE")); ("activation", (JNum 0.07375%float)); ("use_memory", (JBool
true)); ("custom_function", (JStr "threestate"))]); (JObj [("id", (JStr "input_2")); ("is_active", (JBool true));
("type", (JStr "SIMPLE")); ("activation", (JNum 0.04361062920291475%float))]); (JObj [("id", (JStr "input_3"));
("is_active", (JBool true)); ("type", (JStr "SIMPLE")); ("activation", (JNum (-0.6816478125020062)%float))]); (JObj
[("id", (JStr "input_4")); ("is_active", (JBool true)); ("type", (JStr "SIMPLE")); ("activation", (JNum
0.18674101269496457%float))]); (JObj [("id", (JStr "input_5")); ("is_active", (JBool true)); ("type", (JStr
"SIMPLE")); ("activation", (JNum (-0.0625)%float))])]).
Definition in_default_fcm : json float :=
  (JObj [("max_iter", (JInt (500))); ("activation_function", (JStr "sigmoid")); ("activation_function_args", (JObj
[("lambda_val", (JInt (1)))])); ("memory_influence", (JBool false)); ("decision_function", (JStr "LAST"));
("concepts", (JArr [(JObj [("id", (JStr "concept_1")); ("type", (JStr "SIMPLE")); ("activation", (JNum 0.5%float))]);
(JObj [("id", (JStr "concept_2")); ("type", (JStr "DECISION")); ("custom_function", (JStr "gceq"));
("custom_function_args", (JObj [("weight", (JNum 0.3%float))]))]); (JObj [("id", (JStr "concept_3")); ("type", (JStr
"SIMPLE")); ("memory_influence", (JBool true))]); (JObj [("id", (JStr "concept_4")); ("type", (JStr "SIMPLE"));
("custom_function", (JStr "saturation")); ("activation", (JNum 0.3%float))])])); ("relations", (JArr [(JObj
[("origin", (JStr "concept_4")); ("destiny", (JStr "concept_2")); ("weight", (JNum (-0.1)%float))]); (JObj
[("origin", (JStr "concept_1")); ("destiny", (JStr "concept_3")); ("weight", (JNum 0.59%float))]); (JObj [("origin",
(JStr "concept_3")); ("destiny", (JStr "concept_2")); ("weight", (JNum 0.8911%float))])]))]).
Definition in_fcm_json1 : json float :=
  (JObj [("max_iter", (JInt (500))); ("activation_function", (JStr "sigmoid")); ("actv_func_args", (JObj
[("lambda_val", (JInt (1)))])); ("memory_influence", (JBool false)); ("decision_function", (JStr "LAST"));
("concepts", (JArr [(JObj [("id", (JStr "concept_1")); ("type", (JStr "SIMPLE")); ("activation", (JNum
0.25%float))]); (JObj [("id", (JStr "concept_2")); ("type", (JStr "DECISION")); ("custom_function", (JStr "gceq"));
("custom_function_args", (JObj [("weight", (JNum 0.3%float))]))])])); ("relations", (JArr [(JObj [("origin", (JStr
"concept_1")); ("destiny", (JStr "concept_2")); ("weight", (JNum 0.25%float))])]))]).
Definition in_fcm_json2 : json float :=
  (JObj [("max_iter", (JInt (500))); ("activation_function", (JStr "sigmoid")); ("actv_func_args", (JObj
[("lambda_val", (JInt (1)))])); ("memory_influence", (JBool false)); ("decision_function", (JStr "LAST"));
("concepts", (JArr [(JObj [("id", (JStr "concept_1")); ("type", (JStr "SIMPLE")); ("activation", (JNum 0.5%float))]);
(JObj [("id", (JStr "concept_2")); ("type", (JStr "DECISION")); ("custom_function", (JStr "gceq"));
("custom_function_args", (JObj [("weight", (JNum 0.3%float))]))]); (JObj [("id", (JStr "concept_4")); ("type", (JStr
"SIMPLE")); ("custom_function", (JStr "saturation")); ("activation", (JNum 0.3%float))])])); ("relations", (JArr
[(JObj [("origin", (JStr "concept_4")); ("destiny", (JStr "concept_2")); ("weight", (JNum 0.2%float))]); (JObj
[("origin", (JStr "concept_1")); ("destiny", (JStr "concept_2")); ("weight", (JNum 0.75%float))])]))]).
Definition in_fcm_json3 : json float :=
  (JObj [("max_iter", (JInt (500))); ("activation_function", (JStr "sigmoid")); ("actv_func_args", (JObj
[("lambda_val", (JInt (1)))])); ("memory_influence", (JBool false)); ("decision_function", (JStr "LAST"));
("concepts", (JArr [(JObj [("id", (JStr "concept_1")); ("type", (JStr "SIMPLE")); ("activation", (JNum
0.75%float))]); (JObj [("id", (JStr "concept_2")); ("type", (JStr "DECISION")); ("custom_function", (JStr "gceq"));
("custom_function_args", (JObj [("weight", (JNum 0.3%float))]))]); (JObj [("id", (JStr "concept_3")); ("type", (JStr
"SIMPLE")); ("memory_influence", (JBool true))])])); ("relations", (JArr [(JObj [("origin", (JStr "concept_1"));
("destiny", (JStr "concept_4")); ("weight", (JNum (-0.3911)%float))]); (JObj [("origin", (JStr "concept_2"));
("destiny", (JStr "concept_3")); ("weight", (JNum 0.8911%float))])]))]).
(** test_public_library_functions.py 33 *)
Definition x_FromJsonTests_test_default : json float :=
  (JObj [("max_iter", (JInt (500))); ("decision_function", (JStr "LAST")); ("activation_function", (JStr "sigmoid"));
("memory_influence", (JBool false)); ("stability_diff", (JNum 0.001%float)); ("stop_at_stabilize", (JBool true));
("extra_steps", (JInt (5))); ("weight", (JInt (1))); ("concepts", (JArr [(JObj [("id", (JStr "concept_1"));
("is_active", (JBool true)); ("type", (JStr "SIMPLE")); ("activation", (JNum 0.5%float))]); (JObj [("id", (JStr
"concept_2")); ("is_active", (JBool true)); ("type", (JStr "DECISION")); ("activation", (JNum 0.0%float));
("custom_function", (JStr "gceq")); ("custom_function_args", (JObj [("weight", (JNum 0.3%float))]))]); (JObj [("id",
(JStr "concept_3")); ("is_active", (JBool true)); ("type", (JStr "SIMPLE")); ("activation", (JNum 0.0%float));
("use_memory", (JBool true))]); (JObj [("id", (JStr "concept_4")); ("is_active", (JBool true)); ("type", (JStr
"SIMPLE")); ("activation", (JNum 0.3%float)); ("custom_function", (JStr "saturation"))])])); ("relations", (JArr
[(JObj [("origin", (JStr "concept_4")); ("destiny", (JStr "concept_2")); ("weight", (JNum (-0.1)%float))]); (JObj
[("origin", (JStr "concept_1")); ("destiny", (JStr "concept_3")); ("weight", (JNum 0.59%float))]); (JObj [("origin",
(JStr "concept_3")); ("destiny", (JStr "concept_2")); ("weight", (JNum 0.8911%float))])]));
("activation_function_args", (JObj [("lambda_val", (JInt (1)))]))]).
(** test_public_library_functions.py 148 *)
Definition x_JoinMapsTests_test_default : json float :=
  (JObj [("max_iter", (JInt (500))); ("decision_function", (JStr "LAST")); ("activation_function", (JStr "sigmoid"));
("memory_influence", (JBool false)); ("stability_diff", (JNum 0.001%float)); ("stop_at_stabilize", (JBool true));
("extra_steps", (JInt (5))); ("weight", (JInt (1))); ("concepts", (JArr [(JObj [("id", (JStr "concept_1"));
("is_active", (JBool true)); ("type", (JStr "SIMPLE")); ("activation", (JNum 0.5%float))]); (JObj [("id", (JStr
"concept_2")); ("is_active", (JBool true)); ("type", (JStr "DECISION")); ("activation", (JNum 0.0%float));
("custom_function", (JStr "gceq")); ("custom_function_args", (JObj [("weight", (JNum 0.3%float))]))]); (JObj [("id",
(JStr "concept_4")); ("is_active", (JBool true)); ("type", (JStr "SIMPLE")); ("activation", (JNum 0.3%float));
("custom_function", (JStr "saturation"))]); (JObj [("id", (JStr "concept_3")); ("is_active", (JBool true)); ("type",
(JStr "SIMPLE")); ("activation", (JNum 0.0%float))])])); ("relations", (JArr [(JObj [("origin", (JStr "concept_1"));
("destiny", (JStr "concept_2")); ("weight", (JNum 0.5%float))]); (JObj [("origin", (JStr "concept_4")); ("destiny",
(JStr "concept_2")); ("weight", (JNum 0.2%float))]); (JObj [("origin", (JStr "concept_2")); ("destiny", (JStr
"concept_3")); ("weight", (JNum 0.8911%float))])]))]).
(** test_public_library_functions.py 176 *)
Definition x_JoinMapsTests_test_inference_after_join : json float :=
  (JObj [("max_iter", (JInt (500))); ("decision_function", (JStr "LAST")); ("activation_function", (JStr "sigmoid"));
("memory_influence", (JBool false)); ("stability_diff", (JNum 0.001%float)); ("stop_at_stabilize", (JBool true));
("extra_steps", (JInt (5))); ("weight", (JInt (1))); ("concepts", (JArr [(JObj [("id", (JStr "concept_1"));
("is_active", (JBool true)); ("type", (JStr "SIMPLE")); ("activation", (JNum 0.5%float))]); (JObj [("id", (JStr
"concept_2")); ("is_active", (JBool true)); ("type", (JStr "DECISION")); ("activation", (JNum 0.0%float));
("custom_function", (JStr "gceq")); ("custom_function_args", (JObj [("weight", (JNum 0.3%float))]))]); (JObj [("id",
(JStr "concept_4")); ("is_active", (JBool true)); ("type", (JStr "SIMPLE")); ("activation", (JNum 0.0%float));
("custom_function", (JStr "saturation"))]); (JObj [("id", (JStr "concept_3")); ("is_active", (JBool true)); ("type",
(JStr "SIMPLE")); ("activation", (JNum 0.5%float))])])); ("relations", (JArr [(JObj [("origin", (JStr "concept_1"));
("destiny", (JStr "concept_2")); ("weight", (JNum 0.5%float))]); (JObj [("origin", (JStr "concept_4")); ("destiny",
(JStr "concept_2")); ("weight", (JNum 0.2%float))]); (JObj [("origin", (JStr "concept_2")); ("destiny", (JStr
"concept_3")); ("weight", (JNum 0.8911%float))])]))]).
(** test_public_library_functions.py 203 *)
Definition x_JoinMapsTests_test_intersection : json float :=
  (JObj [("concepts", (JArr [(JObj [("id", (JStr "concept_1")); ("is_active", (JBool true)); ("type", (JStr
"SIMPLE")); ("activation", (JNum 0.5%float))]); (JObj [("id", (JStr "concept_2")); ("is_active", (JBool true));
("type", (JStr "DECISION")); ("activation", (JNum 0.0%float)); ("custom_function", (JStr "gceq"));
("custom_function_args", (JObj [("weight", (JNum 0.3%float))]))])])); ("relations", (JArr [(JObj [("origin", (JStr
"concept_1")); ("destiny", (JStr "concept_2")); ("weight", (JNum 0.5%float))])]))]).
(** test_public_library_functions.py 223 *)
Definition x_JoinMapsTests_test_highest_strategies : json float :=
  (JObj [("concepts", (JArr [(JObj [("id", (JStr "concept_1")); ("is_active", (JBool true)); ("type", (JStr
"SIMPLE")); ("activation", (JNum 0.75%float))]); (JObj [("id", (JStr "concept_2")); ("is_active", (JBool true));
("type", (JStr "DECISION")); ("activation", (JNum 0.0%float)); ("custom_function", (JStr "gceq"));
("custom_function_args", (JObj [("weight", (JNum 0.3%float))]))])])); ("relations", (JArr [(JObj [("origin", (JStr
"concept_1")); ("destiny", (JStr "concept_2")); ("weight", (JNum 0.75%float))])]))]).
(** test_public_library_functions.py 243 *)
Definition x_JoinMapsTests_test_lowest_strategies : json float :=
  (JObj [("concepts", (JArr [(JObj [("id", (JStr "concept_1")); ("is_active", (JBool true)); ("type", (JStr
"SIMPLE")); ("activation", (JNum 0.25%float))]); (JObj [("id", (JStr "concept_2")); ("is_active", (JBool true));
("type", (JStr "DECISION")); ("activation", (JNum 0.0%float)); ("custom_function", (JStr "gceq"));
("custom_function_args", (JObj [("weight", (JNum 0.3%float))]))])])); ("relations", (JArr [(JObj [("origin", (JStr
"concept_1")); ("destiny", (JStr "concept_2")); ("weight", (JNum 0.25%float))])]))]).
(** test_public_library_functions.py 287 *)
Definition x_JoinMapsTests_test_join_empty_map_set : json float :=
  (JObj [("max_iter", (JInt (200))); ("decision_function", (JStr "MEAN")); ("activation_function", (JStr
"sigmoid_hip")); ("memory_influence", (JBool false)); ("stability_diff", (JNum 0.001%float)); ("stop_at_stabilize",
(JBool true)); ("extra_steps", (JInt (5))); ("weight", (JInt (1))); ("concepts", (JArr [])); ("relations", (JArr
[]))]).
