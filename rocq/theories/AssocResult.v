(** AssocResult.v — the classes predicted for one row. *)
From Coq Require Import Reals Lra.
From Verif Require Import Base BaseFacts Num RealFacts Functions Fcm FcmSpec FcmBasics FcmInv FcmInv2 FcmInv3 FcmRun FcmRun2 FcmView LoaderSpec LoaderFacts JoinFacts LearnUtils LearnSpec LearnFacts Assoc Estimator EstSpec AssocSpec AssocFacts AssocFacts2 AssocFacts3 AssocFacts4 AssocNames AssocNames2 EstFacts EstFacts2 EstFacts3 AssocGen AssocPredict.

Section Result.
Context {F : Type} {N : Num F}.
Implicit Types (g h : gen F) (s : fcm F) (e : est F).
Variable cf : gconf F.
Hypothesis Hsep : c_sep cf = "___".

Definition val s c : F := match value s c with Some v => v | None => n0 end.
Definition text_of c : string := match get_feature_and_info cf c with Ok (_, t) => t | Err _ => "" end.
Definition outs_of s (d : fdesc F) : list (string * F) := map (fun c => (text_of c, val s c)) (fd_names d).
Definition is_class (d : fdesc F) : bool := String.eqb (fd_type d) TYPE_DECISION.

Lemma select_flat (keep : string -> node F -> bool) s : NoDup (dkeys (m_topo s)) ->
  select keep s = flat_map (fun c => match dget (m_topo s) c with Some n => if keep c n then [(c, nd_value n)] else [] | None => [] end) (dkeys (m_topo s)).
Proof.
  unfold select. intros ND. 
  assert (G : forall t : dict (node F), (forall c n, In (c, n) t -> dget (m_topo s) c = Some n) ->
    map (fun p => (fst p, nd_value (snd p))) (filter (fun p => keep (fst p) (snd p)) t) =
    flat_map (fun c => match dget (m_topo s) c with Some n => if keep c n then [(c, nd_value n)] else [] | None => [] end) (dkeys t)).
  { induction t as [|[c n] t IH]; intros H; [reflexivity|]. cbn [filter fst snd dkeys map flat_map].
    rewrite (H c n (or_introl eq_refl)). change (map fst t) with (dkeys t). rewrite <- IH by (intros; apply H; now right).
    now destruct (keep c n). }
  apply G. intros c n. now apply In_dget.
Qed.
Lemma flat_map_flat_map {A B C} (f : A -> list B) (k : B -> list C) l : flat_map k (flat_map f l) = flat_map (fun a => flat_map k (f a)) l.
Proof. induction l as [|a l IH]; cbn; [reflexivity|]. now rewrite flat_map_app, IH. Qed.
Lemma flat_map_ext_in {A B} (f k : A -> list B) l : (forall a, In a l -> f a = k a) -> flat_map f l = flat_map k l.
Proof. induction l as [|a l IH]; cbn; intros H; [reflexivity|]. rewrite H, IH; auto. Qed.
Lemma flat_map_single {A B} (f : A -> B) l : flat_map (fun a => [f a]) l = map f l.
Proof. induction l; cbn; congruence. Qed.
Lemma target_values fds g : tidy fds g -> sane (g_fcm g) ->
  get_final_state "target" [] (g_fcm g) = Ok (flat_map (fun d => if fd_target d then map (fun c => (c, val (g_fcm g) c)) (fd_names d) else []) fds).
Proof.
  intros T Sa. rewrite (final_state_type "target" _ Sa). f_equal. destruct (sane_parts _ Sa) as (ND & _).
  rewrite select_flat by auto. fold (concepts (g_fcm g)). rewrite (td_all _ _ T), flat_map_flat_map. apply flat_map_ext_in. intros d Hd.
  assert (X : forall c, In c (fd_names d) -> exists n, dget (m_topo (g_fcm g)) c = Some n /\ FcmRun2.wanted "target" n = fd_target d).
  { intros c Hc. assert (Hin : In c (concepts (g_fcm g))) by (apply (td_concepts _ _ T); eauto).
    apply dget_Some_In in Hin as [n Hn]. exists n. split; auto. unfold FcmRun2.wanted. rewrite (td_type _ _ T d c n Hd Hc Hn). cbn. unfold fd_target. now rewrite orb_comm. }
  destruct (fd_target d) eqn:Et.
  - rewrite <- flat_map_single. apply flat_map_ext_in. intros c Hc. destruct (X c Hc) as (n & Hn & Hw). rewrite Hn, Hw.
    unfold val, value, get_concept_value. now rewrite Hn.
  - assert (Y : forall A (l : list A), flat_map (fun _ => @nil (string * F)) l = []) by (clear; intros A l; induction l; auto).
    rewrite <- (Y _ (fd_names d)). apply flat_map_ext_in. intros c Hc. destruct (X c Hc) as (n & Hn & Hw). now rewrite Hn, Hw.
Qed.
(** collecting the values of one feature after another *)
Definition collect g := fun (acc : dict (list (string * F))) (cv : string * F) => let '(concept, v) := cv in
           ('(feat_name, info) <- get_feature_and_info cf concept ;;
            t <- get_type g feat_name ;;
            Ok (if String.eqb t TYPE_FUZZY || String.eqb t TYPE_REGRESOR then acc
                else dappend acc feat_name (info, v)))%res.
Lemma dappend_fold (f : string) (l : list (string * F)) acc : ~ In f (dkeys acc) ->
  fold_left (fun a x => dappend a f x) l acc = match l with [] => acc | _ => acc ++ [(f, l)] end.
Proof.
  intros Hf. assert (G : forall (l : list (string * F)) (acc : dict (list (string * F))) pre, ~ In f (dkeys acc) -> fold_left (fun a x => dappend a f x) l (acc ++ [(f, pre)]) = acc ++ [(f, pre ++ l)]).
  { clear. induction l as [|x l IH]; intros acc pre Hf; cbn [fold_left]; [now rewrite app_nil_r|].
    assert (E : dappend (acc ++ [(f, pre)]) f x = acc ++ [(f, pre ++ [x])]).
    { unfold dappend. clear IH. induction acc as [|[k v] acc IH]; cbn [app dget dset].
      - rewrite String.eqb_refl. reflexivity.
      - destruct (String.eqb_spec f k) as [->|Hk]; [exfalso; apply Hf; now left|]. f_equal. apply IH. intros X. apply Hf. now right. }
    rewrite E, IH by auto. now rewrite <- app_assoc. }
  destruct l as [|x l]; [reflexivity|]. cbn [fold_left]. unfold dappend at 2. 
  replace (dget acc f) with (@None (list (string * F))) by (symmetry; now apply dget_None).
  rewrite dset_notin by auto. cbn [app]. now rewrite G.
Qed.
Lemma rfold_app {A B} (f : A -> B -> res A) l l' a : rfold f (l ++ l') a = (x <- rfold f l a ;; rfold f l' x)%res.
Proof. revert a. induction l as [|b l IH]; intros a; cbn [rfold app]; [reflexivity|]. destruct (f a b); cbn; auto. Qed.
Lemma collect_block fds g d acc : tidy fds g -> In d fds -> fd_target d = true ->
  rfold (collect g) (map (fun c => (c, val (g_fcm g) c)) (fd_names d)) acc =
  Ok (if is_class d then fold_left (fun a x => dappend a (fd_feat d) x) (outs_of (g_fcm g) d) acc else acc).
Proof.
  intros T Hd Ht. unfold outs_of. 
  assert (G : forall l acc, (forall c, In c l -> In c (fd_names d)) -> rfold (collect g) (map (fun c => (c, val (g_fcm g) c)) l) acc =
    Ok (if is_class d then fold_left (fun a x => dappend a (fd_feat d) x) (map (fun c => (text_of c, val (g_fcm g) c)) l) acc else acc)).
  { induction l as [|c l IH]; intros a Hl; cbn [map rfold fold_left]; [now destruct (is_class d)|].
    destruct (td_name _ _ T d c Hd (Hl c (or_introl eq_refl))) as (t & Ec & Rt).
    assert (Et : text_of c = t) by (unfold text_of; now rewrite Ec, (info_name cf Hsep (fd_feat d) t Rt (td_clean _ _ T d Hd))).
    rewrite Et. unfold collect at 1. rewrite Ec, (info_name cf Hsep (fd_feat d) t Rt (td_clean _ _ T d Hd)). cbn [rbind].
    unfold get_type, dget_exn. rewrite (td_known _ _ T d Hd). cbn [rbind feat_of f_type oget].
    assert (E : String.eqb (fd_type d) TYPE_FUZZY || String.eqb (fd_type d) TYPE_REGRESOR = negb (is_class d)).
    { unfold fd_target, is_class in *. destruct (String.eqb_spec (fd_type d) TYPE_REGRESOR) as [->|]; [reflexivity|].
      cbn [orb] in Ht. apply String.eqb_eq in Ht. rewrite Ht. reflexivity. }
    rewrite E. rewrite IH by (intros; apply Hl; now right). now destruct (is_class d). }
  apply G. auto.
Qed.
Definition class_outs s (d : fdesc F) : dict (list (string * F)) :=
  if is_class d then match fd_names d with [] => [] | _ => [(fd_feat d, outs_of s d)] end else [].
Lemma class_outs_keys s l f : In f (dkeys (flat_map (class_outs s) l)) -> In f (map fd_feat l).
Proof.
  unfold dkeys. intros H. apply in_map_iff in H as ([f' x] & <- & H). apply in_flat_map in H as (d & Hd & H). apply in_map_iff. exists d. split; auto.
  unfold class_outs in H. destruct (is_class d); [|easy]. destruct (fd_names d); [easy|]. destruct H as [[= <- _]|[]]. reflexivity.
Qed.
Lemma group_spec fds g : tidy fds g ->
  group_results cf g (flat_map (fun d => if fd_target d then map (fun c => (c, val (g_fcm g) c)) (fd_names d) else []) fds)
  = Ok (flat_map (class_outs (g_fcm g)) fds).
Proof.
  intros T. change (group_results cf g) with (fun st => rfold (collect g) st []). cbv beta.
  assert (G : forall post pre, fds = pre ++ post ->
    rfold (collect g) (flat_map (fun d => if fd_target d then map (fun c => (c, val (g_fcm g) c)) (fd_names d) else []) post) (flat_map (class_outs (g_fcm g)) pre)
    = Ok (flat_map (class_outs (g_fcm g)) fds)).
  { induction post as [|d post IH]; intros pre E; [rewrite app_nil_r in E; now subst|]. cbn [flat_map].
    assert (Hd : In d fds) by (rewrite E; apply in_app_iff; right; now left).
    assert (IH' := IH (pre ++ [d])). rewrite <- app_assoc in IH'. specialize (IH' E). rewrite flat_map_app in IH'. cbn [flat_map] in IH'. rewrite app_nil_r in IH'.
    destruct (fd_target d) eqn:Et.
    - rewrite rfold_app, (collect_block fds) by auto. cbn [rbind]. rewrite <- IH'. f_equal. unfold class_outs. destruct (is_class d); [|now rewrite app_nil_r].
      rewrite dappend_fold.
      + unfold outs_of. destruct (fd_names d); cbn [map]; [now rewrite app_nil_r|reflexivity].
      + intros X. apply class_outs_keys in X. pose proof (td_feats _ _ T) as ND. rewrite E, map_app in ND. cbn [map] in ND. apply NoDup_remove_2 in ND.
        apply ND. apply in_app_iff. now left.
    - cbn [app]. rewrite <- IH'. f_equal. unfold class_outs, is_class. unfold fd_target in Et. apply orb_false_iff in Et as [_ ->]. now rewrite app_nil_r. }
  apply (G fds []). reflexivity.
Qed.
Lemma result_spec fds g g' p : tidy fds g -> sane (g_fcm g) -> get_inference_result cf g = (g', Ok p) ->
  run_inference true (g_fcm g) = (g_fcm g', Ok tt) /\ g_feats g' = g_feats g /\
  p = flat_map (fun d => if is_class d then match fd_names d with [] => [] | _ => [(fd_feat d, class_cell (fst (best_class (outs_of (g_fcm g') d))))] end else []) fds.
Proof.
  intros T Sa H. pose proof (moved_result cf g) as M. rewrite H in M. cbn [fst] in M.
  pose proof (tidy_moved fds g g' M T) as T'. pose proof (moved_sane g g' M Sa) as Sa'.
  unfold get_inference_result, on_fcm in H. destruct (run_inference true (g_fcm g)) as [s' [u|er]] eqn:E; [|discriminate].
  injection H as Hg H. assert (Es : g_fcm g' = s') by (rewrite <- Hg; reflexivity). rewrite Hg in H. rewrite <- Es in H.
  rewrite (target_values fds g' T' Sa') in H. cbn [rbind] in H. rewrite (group_spec fds g' T') in H. cbn [rbind] in H. injection H as <-.
  destruct u. split; [now rewrite Es|]. split; [now rewrite <- Hg|].
  unfold get_discrete_feature_result. rewrite flat_map_concat_map, concat_map, map_map, <- flat_map_concat_map. apply flat_map_ext.
  intros d. unfold class_outs. destruct (is_class d); [|reflexivity]. now destruct (fd_names d).
Qed.
End Result.

(** ** The winning class *)
Section Best.
Local Open Scope R_scope.
Lemma best_fold (l : list (string * R)) b : let r := fold_left (fun best vo => if nltb (snd best) (snd vo) then vo else best) l b in
  (r = b /\ forall x, In x l -> snd x <= snd b) \/
  (exists i, nth_error l i = Some r /\ snd b < snd r /\ (forall x, In x l -> snd x <= snd r) /\ forall j x, (j < i)%nat -> nth_error l j = Some x -> snd x < snd r).
Proof.
  revert b. induction l as [|v l IH]; intros b; cbn [fold_left]; [left; split; [reflexivity|intros x []]|].
  cbv zeta in IH |- *. destruct (nltb (snd b) (snd v)) eqn:Hv; [apply Rltb_true in Hv|apply Rltb_false in Hv].
  - destruct (IH v) as [[E H]|(i & H1 & H2 & H3 & H4)].
    + right. rewrite E. exists 0%nat. split; [reflexivity|]. split; [exact Hv|]. split; [intros x [<-|Hx]; [lra|auto]|]. intros j x Hj. lia.
    + right. exists (S i). split; [exact H1|]. split; [lra|]. split; [intros x [<-|Hx]; [lra|auto]|].
      intros [|j] x Hj Hx; cbn in Hx; [injection Hx as <-; auto|]. apply (H4 j); auto. lia.
  - destruct (IH b) as [[E H]|(i & H1 & H2 & H3 & H4)].
    + left. rewrite E. split; [reflexivity|]. intros x [<-|Hx]; [lra|auto].
    + right. exists (S i). split; [exact H1|]. split; [lra|]. split; [intros x [<-|Hx]; [lra|auto]|].
      intros [|j] x Hj Hx; cbn in Hx; [injection Hx as <-; lra|]. apply (H4 j); auto. lia.
Qed.
Lemma best_spec (outs : list (string * R)) t : outs <> [] -> fst (best_class outs) = t ->
  (exists i v, nth_error outs i = Some (t, v) /\ -1 < v /\ (forall x, In x outs -> snd x <= v) /\ forall j x, (j < i)%nat -> nth_error outs j = Some x -> snd x < v) \/
  ((exists v, nth_error outs 0 = Some (t, v)) /\ forall x, In x outs -> snd x <= -1).
Proof.
  intros Ne Ht. unfold best_class in Ht. destruct outs as [|[t0 v0] l]; [congruence|].
  pose proof (best_fold ((t0, v0) :: l) (t0, nofZ (-1))) as B. cbv zeta in B. destruct (fold_left _ _ _) as [t1 v1] eqn:E. cbn [fst snd] in *. subst t1.
  change (nofZ (-1)) with (IZR (-1)) in B.
  destruct B as [[B1 B2]|(i & B1 & B2 & B3 & B4)].
  - right. injection B1 as -> _. split; [exists v0; reflexivity|exact B2].
  - left. exists i, v1. auto.
Qed.
End Best.
