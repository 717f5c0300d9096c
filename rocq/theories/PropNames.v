(** PropNames.v — C106: the names of features and of their values. *)
From Coq Require Import QArith.
From Verif Require Import Base BaseFacts Num QNum Functions Fcm FcmSpec FcmInv LearnUtils Assoc AssocSpec LoaderSpec Estimator EstSpec EstFacts4 EstExamples AssocFacts4 AssocNames2 FcmRename FcmRename2 NameFacts NameFacts2 PropRename PropAssoc PropEstimator2 PropShift.
Local Close Scope Q_scope.

(** ** Statement *)
Section Statement.
Context {F : Type} {N : Num F}.
(** other names of the features, and of the values in columns of texts *)
Definition rename_column (r : string -> string) (c : column F) : column F := match c with ColStr l => ColStr (map r l) | _ => c end.
Definition rename_data (phi : string -> string) (psi : string -> string -> string) (ds : dataset F) : dataset F :=
  map (fun fc => (phi (fst fc), rename_column (psi (fst fc)) (snd fc))) ds.
(** no two names become one; names that can be told apart from the separator stay so *)
Record naming (phi : string -> string) (psi : string -> string -> string) : Prop := {
  nm_feature : injective phi;
  nm_value : forall f, injective (psi f);
  nm_clean : forall f, ~ occurs "___" f -> ~ occurs "___" (phi f);
  nm_readable : forall f v, readable v -> readable (psi f v)
}.
(** the texts of a column keep their alphabetical order *)
Definition order_kept (psi : string -> string -> string) (ds : dataset F) : Prop :=
  forall f l, In (f, ColStr l) ds -> forall a b, In a l -> In b l -> str_leb (psi f a) (psi f b) = str_leb a b.
(** only columns of texts get other values *)
Definition texts_only (psi : string -> string -> string) (ds : dataset F) : Prop :=
  forall f c, In (f, c) ds -> (forall l, c <> ColStr l) -> forall v, psi f v = v.
(** the order in which the sets of names are gone through, and the discretization, for the other names *)
Definition other_names (cf : gconf F) (ord : list string -> list string) (disc : string -> list F -> res (nat * list F * list (list F))) : gconf F :=
  mkGconf (c_sep cf) (c_excl cf) (c_double cf) (c_featrel cf) (c_caus cf) (c_eval cf) (c_thr cf) (c_sign cf) (c_signcut cf) (c_infer cf) (c_fstr cf) (c_trunc cf) ord disc.
(** texts of digits are predicted as numbers *)
Definition shown (v : string) (c : cell F) : Prop := if isnumeric v then c = CInt (digits_val v 0) else c = CStr v.
(** the same labels under other names *)
Definition relabelled (phi : string -> string) (psi : string -> string -> string) (d d' : dict (list (cell F))) : Prop :=
  Forall2 (fun p p' => fst p' = phi (fst p) /\ Forall2 (fun c c' => exists v, shown v c /\ shown (psi (fst p) v) c') (snd p) (snd p')) d d'.
(** test data with proper names *)
Definition proper_test (psi : string -> string -> string) (t : dataset F) : Prop :=
  texts_only psi t /\ forall f c, In (f, c) t -> ~ occurs "___" f /\ forall l, c = ColStr l -> Forall readable l.
End Statement.

(** ** Proof *)
Section Proof.
Context {F : Type} {N : Num F}.
Lemma shown_cell v : shown (F := F) v (class_cell v).
Proof. unfold shown, class_cell. now destruct (isnumeric v). Qed.
Lemma relabelled_of phi psi (d d' : dict (list (cell F))) : NameFacts2.relabelled phi psi d d' -> relabelled phi psi d d'.
Proof.
  induction 1 as [|[f l] [f' l'] d d' [H1 H2] _ IH]; constructor; [|exact IH]. cbn [fst snd] in *. split; [exact H1|]. clear - H2. induction H2 as [|c c' l l' (v & -> & ->) _ IH]; constructor; [|exact IH].
  exists v. split; apply shown_cell.
Qed.
Lemma suited_of psi (t : dataset F) : proper_test psi t -> suited_frame psi t.
Proof.
  intros [H1 H2] f c Hi. destruct (H2 f c Hi) as [A B]. split; [exact A|]. destruct c; [now apply B|..]; intros v; apply (H1 _ _ Hi); discriminate.
Qed.
End Proof.

(** ** C106 *)
(** Fitting with other names of features and of values, the texts of each column
    keeping their order: fit ends the same way, the map is the same up to the names of
    its concepts, and from then on every prediction is the same up to the names. *)
Theorem C106_names (F : Type) (N : Num F) (cf : gconf F) ord disc phi psi e0 e x y :
  naming phi psi -> reorders (c_ord cf) -> (forall l, ord (map phi l) = map phi (c_ord cf l)) -> (forall f data, disc (phi f) data = c_disc cf f data) ->
  healthy e0 e -> (forall f, In f (dkeys x) -> ~ In f (dkeys y)) -> readable_data cf (x ++ y) -> order_kept psi (x ++ y) -> texts_only psi (x ++ y) ->
  let cf' := other_names cf ord disc in let ren := rename_data phi psi in
  same_outcome eq (snd (fit cf x y e)) (snd (fit cf' (ren x) (ren y) e)) /\
  forall e1 e2, fit cf x y e = (e1, Ok tt) -> fit cf' (ren x) (ren y) e = (e2, Ok tt) ->
    (exists rho, injective rho /\ (forall f v, readable v -> ~ occurs "___" f -> rho (append v (append "___" f)) = append (psi f v) (append "___" (phi f))) /\ renamed rho (e_map e1) (e_map e2)) /\
    (forall tests, Forall (proper_test psi) tests -> Forall2 (same_outcome (relabelled phi psi)) (predictions cf tests e1) (predictions cf' (map ren tests) e2)) /\
    (forall xt yt, (forall f v, isnumeric (psi f v) = isnumeric v) -> proper_test psi xt -> proper_test psi yt ->
       same_outcome eq (snd (score cf xt yt e1)) (snd (score cf' (ren xt) (ren yt) e2))).
Proof.
  intros [Pi Si Pc Sr] HO Ho Hd HH HD RD OK TO cf' ren. pose proof RD as (Hsep & ND & HRd).
  assert (Hj : join_frames x y = x ++ y) by (apply (NameFacts.join_rds phi psi Pi x y HD)).
  assert (HM : Forall (nameable cf psi) (x ++ y)).
  { apply Forall_forall. intros [f c] Hi. destruct (HRd f c Hi) as [A B]. split; [exact A|]. split; [exact B|]. cbn [fst snd]. destruct c as [l|l|l|l]; [exact (OK f l Hi)|..]; intros v; apply (TO _ _ Hi); discriminate. }
  destruct (fit_names cf Hsep phi psi Pi Si Pc Sr ord disc Ho Hd x y e0 e (healthy_estimator _ _ HH) HD HM) as [S1 S2]. split; [exact S1|].
  intros e1 e2 F1 F2. change (rds phi psi x) with (ren x) in S2. change (rds phi psi y) with (ren y) in S2. change (oconf cf ord disc) with cf' in S2. rewrite F1, F2 in S2. specialize (S2 eq_refl). cbn [fst] in S2. subst e2.
  rewrite <- Hj in RD. destruct (fit_proper cf Hsep x y e0 e e1 HO HH RD F1) as [I Hp]. split; [|split].
  - exists (rho cf phi psi). split; [exact (rho_inj cf Hsep phi psi Pi Si Pc Sr)|]. split; [exact (rho_full cf Hsep phi psi)|]. apply (renamed_ren _ (rho_inj cf Hsep phi psi Pi Si Pc Sr)).
  - clear - Hsep Pi Si Pc Sr I Hp. intros tests Ht. revert e1 Hp I. induction Ht as [|t tests Hx Ht IH]; intros e1 Hp I; [constructor|].
    destruct (predict_names cf Hsep phi psi Pi Si Pc Sr ord disc t e1 Hp I (suited_of psi t Hx)) as (A & B & C & D). cbn [map predictions]. change (rds phi psi t) with (ren t) in *. change (oconf cf ord disc) with cf' in *.
    constructor; [|rewrite A; now apply IH]. destruct (snd (predict cf t e1)), (snd (predict cf' (ren t) _)); auto. now apply relabelled_of.
  - intros xt yt Hn Hx Hy. apply (score_names cf Hsep phi psi Pi Si Pc Sr ord disc Hn xt yt e1 Hp I); now apply suited_of.
Qed.
Print Assumptions C106_names.

(** ** Non-vacuity: every name prefixed by x *)
Definition xpsi (_ v : string) : string := px v.
Example C106_prefix : naming px xpsi.
Proof.
  assert (Cl : forall v, ~ occurs "___" v -> ~ occurs "___" (px v)).
  { intros v H (a & b & E). apply H. unfold px in E. destruct a as [|c a]; [discriminate|]. injection E as _ E. exists a, b. exact E. }
  constructor.
  - intros a b H. now injection H.
  - intros f a b H. now injection H.
  - exact Cl.
  - intros f v [H1 H2]. split; [now apply Cl|]. intros [|c t] E; [discriminate|]. injection E as _ E. now apply (H2 t).
Qed.
Definition nq_conf : gconf Q := mkGconf "___" (-1 # 1)%Q true true rel_conf rel_supp 0%Q None (1 # 2)%Q true (fun _ => "q") (fun _ => Ok 0%Z) (fun l => l) (fun _ _ => Err EUndef).
Definition nx : dataset Q := [("f", ColStr ["a"; "b"; "a"; "b"]); ("g", ColStr ["s"; "s"; "t"; "s"])].
Definition ny : dataset Q := [("c", ColStr ["u"; "v"; "u"; "v"])].
Definition nt : dataset Q := [("f", ColStr ["b"; "a"]); ("g", ColStr ["s"; "t"])].
Definition n_est (vec : bool) : res (est Q) := init_est (F := Q) 4 2 (1 # 1024)%Q "LAST" true "KOSKO" "saturation" [] vec.
(** the hypotheses hold and both fits and predictions succeed, in both engines *)
Example C106_hypotheses :
  naming px xpsi /\ reorders (c_ord nq_conf) /\ (forall f, In f (dkeys nx) -> ~ In f (dkeys ny)) /\ readable_data nq_conf (nx ++ ny) /\ order_kept xpsi (nx ++ ny) /\ texts_only xpsi (nx ++ ny) /\
  proper_test xpsi nt /\ proper_test xpsi ny /\ forall vec, exists e0, n_est vec = Ok e0 /\ healthy e0 e0.
Proof.
  assert (Rd : forall v, In v ["a"; "b"; "s"; "t"; "u"; "v"] -> readable v).
  { intros v Hv. split.
    - intros (p & q & E). repeat (destruct Hv as [<-|Hv]; [destruct p as [|? [|? p]]; discriminate|]). easy.
    - intros t E. repeat (destruct Hv as [<-|Hv]; [destruct t as [|? [|? t]]; discriminate|]). easy. }
  assert (Cl : forall f, In f ["f"; "g"; "c"] -> ~ occurs "___" f).
  { intros f Hf (p & q & E). repeat (destruct Hf as [<-|Hf]; [destruct p as [|? [|? p]]; discriminate|]). easy. }
  assert (Fr : forall l, incl l ["a"; "b"; "s"; "t"; "u"; "v"] -> Forall readable l) by (intros l Hl; apply Forall_forall; intros v Hv; apply Rd; now apply Hl).
  split; [exact C106_prefix|]. split; [intros l; apply Permutation.Permutation_refl|]. 
  split; [intros f [<-|[<-|[]]] [E|[]]; discriminate|].
  split.
  { split; [reflexivity|]. split; [repeat constructor; cbn; intuition discriminate|]. intros f c [E|[E|[E|[]]]]; injection E as <- <-; (split; [apply Cl; cbn; tauto|]); apply Fr; intros v; cbn; tauto. }
  split; [intros f l _ a b _ _; reflexivity|].
  split; [intros f c [E|[E|[E|[]]]] Hn; injection E as <- <-; exfalso; now eapply Hn|].
  split.
  { split; [intros f c [E|[E|[]]] Hn; injection E as <- <-; exfalso; now eapply Hn|]. intros f c [E|[E|[]]]; injection E as <- <-; (split; [apply Cl; cbn; tauto|]); intros l E; injection E as <-; apply Fr; intros v; cbn; tauto. }
  split.
  { split; [intros f c [E|[]] Hn; injection E as <- <-; exfalso; now eapply Hn|]. intros f c [E|[]]; injection E as <- <-; (split; [apply Cl; cbn; tauto|]); intros l E; injection E as <-; apply Fr; intros v; cbn; tauto. }
  intros vec. unfold n_est. destruct (init_est (F := Q) 4 2 (1 # 1024)%Q "LAST" true "KOSKO" "saturation" [] vec) as [e0|er] eqn:E; [|destruct vec; vm_compute in E; discriminate].
  exists e0. split; [reflexivity|]. split; [do 9 eexists; exact E|]. exists []. now split.
Qed.
Definition n_run (vec : bool) (x y t : dataset Q) : res (list string * dict (list (cell Q))) :=
  (e0 <- n_est vec ;; let '(e1, r) := fit nq_conf x y e0 in _ <- r ;; p <- snd (predict nq_conf t e1) ;; Ok (dkeys (m_topo (e_map e1)), p))%res.
Example C106_nonvacuous : forall vec,
  n_run vec nx ny nt = Ok (["a___f"; "b___f"; "s___g"; "t___g"; "u___c"; "v___c"], [("c", [CStr "v"; CStr "u"])]) /\
  n_run vec (rename_data px xpsi nx) (rename_data px xpsi ny) (rename_data px xpsi nt) =
    Ok (["xa___xf"; "xb___xf"; "xs___xg"; "xt___xg"; "xu___xc"; "xv___xc"], [("xc", [CStr "xv"; CStr "xu"])]).
Proof. intros [|]; vm_compute; split; reflexivity. Qed.

(** ** Without the order *)
(** The alphabetical order of the class names should not matter.  It does when two
    classes are activated equally: the answer is the first one in that order.  Two
    rows that differ in their class only, and the class "u" called "w". *)
Definition swap_uw (v : string) : string := if String.eqb v "u" then "w" else if String.eqb v "w" then "u" else v.
Definition swap_class (f v : string) : string := if String.eqb f "c" then swap_uw v else v.
Definition tx : dataset Q := [("f", ColStr ["a"; "a"])].
Definition ty : dataset Q := [("c", ColStr ["u"; "v"])].
Theorem C106_order_refuted :
  naming (fun f => f) swap_class /\
  forall vec, exists n1 n2, n_run vec tx ty tx = Ok (n1, [("c", [CStr "u"; CStr "u"])]) /\
    n_run vec (rename_data (fun f => f) swap_class tx) (rename_data (fun f => f) swap_class ty) (rename_data (fun f => f) swap_class tx) = Ok (n2, [("c", [CStr "v"; CStr "v"])]) /\
    ~ relabelled (F := Q) (fun f => f) swap_class [("c", [CStr "u"; CStr "u"])] [("c", [CStr "v"; CStr "v"])].
Proof.
  assert (Iv : forall v, swap_uw (swap_uw v) = v).
  { intros v. unfold swap_uw. destruct (String.eqb_spec v "u") as [->|H]; [reflexivity|]. destruct (String.eqb_spec v "w") as [->|H']; [reflexivity|].
    destruct (String.eqb_spec v "u"); [easy|]. destruct (String.eqb_spec v "w"); [easy|reflexivity]. }
  assert (Rd : forall v, List.length (list_ascii_of_string v) = 1 -> v <> "_" -> readable v).
  { intros [|c [|d v]]; try discriminate. intros _ H. split; [intros ([|p [|p' a]] & b & E); discriminate|]. intros [|p [|p' t]] E; try discriminate. now apply H. }
  split.
  - constructor; auto; [intros a b H; exact H|..]; intros f; unfold swap_class; destruct (String.eqb f "c"); auto; [| intros a b H; exact H|].
    + intros a b H. rewrite <- (Iv a), <- (Iv b). now f_equal.
    + intros v H. unfold swap_uw. destruct (String.eqb v "u"); [apply Rd; [reflexivity|discriminate]|]. destruct (String.eqb v "w"); [apply Rd; [reflexivity|discriminate]|exact H].
  - intros vec. do 2 eexists. split; [|split].
    + destruct vec; vm_compute; reflexivity.
    + destruct vec; vm_compute; reflexivity.
    + intros H. inversion H as [|? ? ? ? [_ H1] _]; subst. inversion H1 as [|? ? ? ? (v & V1 & V2) _]; subst. cbn in V1, V2. unfold shown in V1, V2.
      destruct (isnumeric v) eqn:Ev; [discriminate|]. injection V1 as <-. cbn in V2. discriminate.
Qed.
Print Assumptions C106_order_refuted.
