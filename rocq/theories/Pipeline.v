(** Pipeline.v — the generator with the discretization it really calls.
    Assoc.v keeps the discretization as a parameter ([c_disc]); here it is
    fuzzy_feature_discretization of Discret.v, as called by
    /repo/py_fcm/learning/association.py lines 63-67. *)
From Verif Require Import Base Num LearnUtils Discret Assoc.

Section Pipeline.
Context {F : Type} {N : Num F}.
(** association.py lines 63-67: strategy and feature name are passed on;
    max_clusters = 7 and max_iter = 200 are the defaults of
    learning/discretization/__init__.py line 49.  What numpy computes outside the
    model depends on the feature and its distinct values: [curve] (np.polyfit,
    clusters_estimation.py lines 56-62) and [rand] (np.random.rand, one matrix per
    number of clusters tried).  Plotting (plot, plot_dir) is left out. *)
Definition generator_disc (strategy : string) (curve : string -> list F -> list F)
    (rand : string -> list F -> nat -> list (list F)) (feat_name : string) (data : list F)
  : res (nat * list F * list (list F)) :=
  let values := unique nleb neqb data in
  fuzzy_feature_discretization data 7 200 strategy feat_name (curve feat_name values) (rand feat_name values).
(** association.py lines 30-53 with that discretization in place *)
Definition with_disc (strategy : string) (curve : string -> list F -> list F)
    (rand : string -> list F -> nat -> list (list F)) (cf : gconf F) : gconf F :=
  mkGconf (c_sep cf) (c_excl cf) (c_double cf) (c_featrel cf) (c_caus cf) (c_eval cf) (c_thr cf) (c_sign cf)
    (c_signcut cf) (c_infer cf) (c_fstr cf) (c_trunc cf) (c_ord cf) (generator_disc strategy curve rand).
End Pipeline.
