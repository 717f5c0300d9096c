(** EstSpec.v — vocabulary for statements about the estimator.  Nothing here is used
    by the model. *)
From Verif Require Import Base Num Functions Fcm FcmSpec LearnUtils Assoc Estimator.

Section EstSpec.
Context {F : Type} {N : Num F}.
(** calls on an estimator; the configuration is the same in every call, but what
    lies outside the model (random draws, set order) may differ *)
Inductive ecall : Type :=
| EFit (cf : gconf F) (x y : dataset F) | EPredict (cf : gconf F) (x : dataset F) | EScore (cf : gconf F) (x y : dataset F).
Definition edo (c : ecall) (e : est F) : est F * res unit :=
  match c with
  | EFit cf x y => fit cf x y e
  | EPredict cf x => let '(e, r) := predict cf x e in (e, rbind r (fun _ => Ok tt))
  | EScore cf x y => let '(e, r) := score cf x y e in (e, rbind r (fun _ => Ok tt))
  end.
(** going on after exceptions *)
Definition eruns (l : list ecall) (e : est F) : est F := fold_left (fun e c => fst (edo c e)) l e.
Definition is_fit (c : ecall) : bool := match c with EFit _ _ _ => true | _ => false end.
(** no fit raised *)
Fixpoint fits_ok (l : list ecall) (e : est F) : Prop :=
  match l with
  | [] => True
  | c :: t => (is_fit c = true -> snd (edo c e) = Ok tt) /\ fits_ok t (fst (edo c e))
  end.
(** what a fit produces: the concepts with all their data, the relations, the
    settings, and the generator's feature tables *)
Definition fitted_model (e : est F) :=
  (m_topo (e_map e), m_exec (e_map e), m_arcs (e_map e), settings (e_map e), e_feats e, e_proc e).
(** an estimator made by its constructor ([e0]) and used in any way after that *)
Definition estimator (e0 e : est F) : Prop :=
  (exists max_it extra_steps stability_diff decision mem excitation activation kwargs vectorized,
     init_est max_it extra_steps stability_diff decision mem excitation activation kwargs vectorized = Ok e0) /\
  exists calls, e = eruns calls e0.
(** the same, no fit having raised *)
Definition healthy (e0 e : est F) : Prop :=
  (exists max_it extra_steps stability_diff decision mem excitation activation kwargs vectorized,
     init_est max_it extra_steps stability_diff decision mem excitation activation kwargs vectorized = Ok e0) /\
  exists calls, fits_ok calls e0 /\ e = eruns calls e0.
(** using a fitted estimator: predictions and scores only *)
Definition used (e e' : est F) : Prop :=
  exists calls, forallb (fun c => negb (is_fit c)) calls = true /\ e' = eruns calls e.

(** ** Tables *)
(** [is]-th elements, in that order (DataFrame.iloc) *)
Definition pick {A} (is : list nat) (l : list A) : list A :=
  flat_map (fun i => match nth_error l i with Some a => [a] | None => [] end) is.
Definition pick_rows (is : list nat) (x : dataset F) : dataset F :=
  map (fun c => (fst c, match snd c with
                        | ColStr l => ColStr (pick is l) | ColBool l => ColBool (pick is l)
                        | ColInt l => ColInt (pick is l) | ColFlt l => ColFlt (pick is l)
                        end)) x.
(** all columns have [n] entries *)
Definition table (n : nat) (x : dataset F) : Prop := x <> [] /\ forall f c, In (f, c) x -> col_length c = n.
(** the predictions for one feature *)
Definition labels (out : dict (list (cell F))) (f : string) : list (cell F) :=
  match dget out f with Some l => l | None => [] end.

(** ** Scores *)
Definition number_of (v : cell F) : option F :=
  match v with CStr _ => None | CBool b => Some (if b then n1 else n0) | CInt z => Some (nofZ z) | CFlt x => Some x end.
Definition same_label (a b : cell F) : bool :=
  match a, b with
  | CStr s, CStr t => String.eqb s t
  | _, _ => match number_of a, number_of b with Some x, Some y => neqb x y | _, _ => false end
  end.
(** every label next to the prediction for its row *)
Definition compared (out : dict (list (cell F))) (y : dataset F) : list (cell F * cell F) :=
  flat_map (fun c => combine (col_cells (snd c)) (labels out (fst c))) y.
Definition hits (out : dict (list (cell F))) (y : dataset F) : nat :=
  length (filter (fun lp => same_label (fst lp) (snd lp)) (compared out y)).
Definition label_count (y : dataset F) : nat := length (flat_map (fun c => col_cells (snd c)) y).
(** there is a prediction for every label *)
Definition covered (out : dict (list (cell F))) (y : dataset F) : Prop :=
  forall f c, In (f, c) y -> (length (col_cells c) <= length (labels out f))%nat.
End EstSpec.
Arguments ecall : clear implicits.
