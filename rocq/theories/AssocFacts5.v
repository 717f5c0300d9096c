(** AssocFacts5.v — generated maps do not depend on the iteration order of sets. *)
From Coq Require Import Permutation Reals.
From Verif Require Import Base BaseFacts Num Functions Fcm FcmSpec FcmInv FcmInv2 FcmInv3 FcmRun FcmOrder LoaderFacts LearnUtils LearnSpec LearnFacts Assoc AssocSpec AssocFacts AssocFacts2 AssocFacts3 AssocFacts4.

Section Shuffled.
Context {F : Type} {N : Num F}.
Notation rel := (string * string * F)%type.
(** the same calls, relations being added in another order between two additions of concepts *)
Inductive shuffled : list (op F) -> list (op F) -> Prop :=
| ShNil : shuffled [] []
| ShSame ops l l' : shuffled l l' -> shuffled (ops ++ l) (ops ++ l')
| ShRels (r r' : list rel) l l' : Permutation r r' -> shuffled l l' -> shuffled (map rel_op r ++ l) (map rel_op r' ++ l').
Lemma shuffled_rels l l' : shuffled l l' -> Permutation (ops_rels l) (ops_rels l') /\ flat_map added l = flat_map added l'.
Proof.
  induction 1 as [|ops l l' _ [I1 I2]|r r' l l' P _ [I1 I2]]; [split; auto| |]; rewrite !ops_rels_app, !flat_map_app.
  - split; [now apply Permutation_app_head|now rewrite I2].
  - rewrite !ops_rels_map. split; [now apply Permutation_app|].
    assert (X : forall x : list rel, flat_map added (map rel_op x) = []) by (apply names_of_rels). now rewrite !X.
Qed.
Variable cf : gconf F.
Variable o : list string -> list string.
Hypothesis H1 : reorders (c_ord cf).
Hypothesis H2 : reorders o.
Notation cf' := (with_order cf o).
Lemma describe_order dc targets fc : describe cf' dc targets fc = describe cf dc targets fc.
Proof. reflexivity. Qed.
Lemma plan_inner_order d : plan_inner cf' d = plan_inner cf d.
Proof. reflexivity. Qed.
Lemma plan_cross_order d L : plan_cross cf' d L = plan_cross cf d L.
Proof. reflexivity. Qed.
Lemma plan_cross_perm d L L' l : Permutation L L' -> plan_cross cf d L = Ok l -> exists l', plan_cross cf d L' = Ok l' /\ Permutation l l'.
Proof. apply rflat_perm. Qed.
Lemma plan_order dc targets ds : forall done ops out, NoDup (map fd_feat done ++ dkeys ds) -> plan_build cf dc targets done ds = Ok (ops, out) ->
  exists ops', plan_build cf' dc targets done ds = Ok (ops', out) /\ shuffled ops ops'.
Proof.
  induction ds as [|fc ds IH]; intros done ops out ND H; cbn [plan_build] in *.
  - injection H as <- <-. exists []. split; auto. constructor.
  - unfold plan_feature in *. rewrite describe_order. destruct (describe cf dc targets fc) as [[ops1 d]|e] eqn:Ed; [|discriminate]. cbn [rbind] in *.
    destruct (describe_described cf _ _ _ _ _ Ed) as (_ & Df & _).
    destruct (plan_cross cf d (others cf done (fst fc))) as [rels|e] eqn:Ec; [|discriminate]. cbn [rbind] in *.
    assert (P : Permutation (others cf done (fst fc)) (others cf' done (fst fc))).
    { assert (A : NoDup (map fd_feat done)) by (eapply NoDup_app_left; eauto).
      assert (B : ~ In (fst fc) (map fd_feat done)).
      { cbn in ND. apply NoDup_remove_2 in ND. intros X. apply ND. apply in_app_iff. now left. }
      eapply Permutation_trans; [apply others_perm; auto|]. apply Permutation_sym, others_perm; auto. }
    destruct (plan_cross_perm _ _ _ _ P Ec) as (rels' & Ec' & Pr). rewrite plan_cross_order, Ec'. cbn [rbind].
    destruct (plan_build cf dc targets (done ++ [d]) ds) as [[ops2 out2]|e] eqn:Eb; [|discriminate]. cbn [rbind] in H. injection H as <- <-.
    assert (ND' : NoDup (map fd_feat (done ++ [d]) ++ dkeys ds)).
    { rewrite map_app, <- app_assoc. cbn. now rewrite Df. }
    destruct (IH _ _ _ ND' Eb) as (ops2' & Eb' & S).
    rewrite Eb'. cbn [rbind]. eexists. split; [reflexivity|]. rewrite <- !app_assoc, plan_inner_order, !map_app, <- !app_assoc.
    apply ShSame, ShSame, ShRels; auto.
Qed.
End Shuffled.

Section Real.
Implicit Types s t : fcm R.
Lemma add_concept_sim n ct a m e d f k s s' : sim s s' ->
  sim (fst (add_concept n ct a m e d f k s)) (fst (add_concept n ct a m e d f k s')).
Proof.
  intros S. pose proof S as [A B C D X]. unfold add_concept.
  assert (Dc : m_default (set_prepared false s') = m_default (set_prepared false s)) by (unfold settings in A; cbn; congruence).
  rewrite Dc. destruct (build_node _ _ _ _ _ _ _ _) as [nd [u|er]]; constructor; cbn; auto; try (intros c; rewrite !dget_dset; destruct (String.eqb c n); auto).
Qed.
Lemma shuffled_sim l l' : shuffled l l' -> forallb is_building l = true -> forall s t, m_fit s = None -> sim s t -> sim (run_ops l s) (run_ops l' t).
Proof.
  assert (One : forall ops, forallb is_building ops = true -> forall s t, m_fit s = None -> sim s t -> sim (run_ops ops s) (run_ops ops t)).
  { induction ops as [|o ops IH]; intros Bu s t Fi S; auto. cbn [forallb] in Bu. apply andb_prop in Bu as [Bo Bu].
    unfold run_ops. cbn [fold_left]. apply IH; auto.
    - pose proof (build_settings o s Bo) as Se. apply settings_fit in Se as [Se _]. congruence.
    - destruct o; try discriminate Bo; cbn [step]; [now apply add_concept_sim|now apply add_relation_sim]. }
  assert (Fit : forall ops s, forallb is_building ops = true -> m_fit s = None -> m_fit (run_ops ops s) = None).
  { intros ops s Bu Fi. pose proof (builds_settings ops s Bu) as Se. apply settings_fit in Se as [Se _]. congruence. }
  induction 1 as [|ops l l' _ IH|r r' l l' P _ IH]; intros Bu s t Fi S; auto; rewrite forallb_app in Bu; apply andb_prop in Bu as [B1 B2];
    rewrite !run_ops_app; apply IH; auto.
  eapply sim_trans; [apply (add_relations_perm r r' s P Fi)|]. now apply add_relations_sim.
Qed.
End Real.
