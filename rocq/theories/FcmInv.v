(** FcmInv.v — what the methods leave unchanged, and invariants over all call sequences. *)
From Verif Require Import Base BaseFacts Num Functions Fcm FcmSpec.

Section Inv.
Context {F : Type} {N : Num F}.
Implicit Types s : fcm F.

(** ** dmap *)
Lemma dmap_dset {A B} (f : string -> A -> B) d k v : dmap f (dset d k v) = dset (dmap f d) k (f k v).
Proof.
  induction d as [|[k0 v0] d IH]; simpl; auto.
  destruct (String.eqb_spec k k0) as [->|]; simpl; auto. now rewrite IH.
Qed.

(** ** frames *)
(** the part of a node that inference does not change *)
Definition nd_static (n : node F) : node F := nd_set_aux [] (nd_set_value n0 n).
Definition statics s : dict (node F) := dmap (fun _ => nd_static) (m_topo s).
Definition frame s s' : Prop :=
  statics s' = statics s /\ m_arcs s' = m_arcs s /\ settings s' = settings s /\
  m_prepared s' = m_prepared s /\ m_cache s' = m_cache s /\ m_oob s' = m_oob s.
Lemma frame_refl s : frame s s.
Proof. repeat split. Qed.
Lemma frame_trans s1 s2 s3 : frame s1 s2 -> frame s2 s3 -> frame s1 s3.
Proof. unfold frame. intros (?&?&?&?&?&?) (?&?&?&?&?&?). repeat split; congruence. Qed.
Lemma statics_keys s s' : statics s' = statics s -> dkeys (m_topo s') = dkeys (m_topo s).
Proof. intros H. apply (f_equal (@dkeys _)) in H. unfold statics in H. now rewrite !dkeys_dmap in H. Qed.
Lemma statics_dget s s' c n : statics s' = statics s -> dget (m_topo s) c = Some n ->
  exists n', dget (m_topo s') c = Some n' /\ nd_static n' = nd_static n.
Proof.
  intros H Hn. apply (f_equal (fun d => dget d c)) in H. unfold statics in H.
  rewrite !dget_dmap, Hn in H. destruct (dget (m_topo s') c) as [n'|]; [|discriminate].
  exists n'. split; [reflexivity|]. congruence.
Qed.
Lemma statics_put_node s c n n1 : dget (m_topo s) c = Some n1 -> nd_static n = nd_static n1 ->
  statics (put_node c n s) = statics s.
Proof.
  intros H E. unfold statics. cbn [m_topo put_node set_topo]. rewrite dmap_dset.
  apply dset_id. rewrite dget_dmap, H. now rewrite E.
Qed.
Lemma frame_put_node s c n n1 : dget (m_topo s) c = Some n1 -> nd_static n = nd_static n1 ->
  frame s (put_node c n s).
Proof. intros. repeat split. eapply statics_put_node; eauto. Qed.
Lemma frame_put_exec s c h : frame s (put_exec c h s).
Proof. repeat split. Qed.
Lemma frame_iters s k : frame s (set_iters k s).
Proof. repeat split. Qed.

Lemma mfold_frame {A} (f : A -> fcm F -> fcm F * res unit) l s :
  (forall a s, frame s (fst (f a s))) -> frame s (fst (mfold f l s)).
Proof.
  intros Hf. revert s. induction l as [|a l IH]; intros s; simpl; [apply frame_refl|].
  specialize (Hf a s). destruct (f a s) as [s' [u|e]]; cbn [fst] in *; [|exact Hf].
  eapply frame_trans; eauto.
Qed.
Lemma mfold_ind {A} (P : fcm F -> Prop) (f : A -> fcm F -> fcm F * res unit) l s :
  (forall a s, P s -> P (fst (f a s))) -> P s -> P (fst (mfold f l s)).
Proof.
  intros Hf. revert s. induction l as [|a l IH]; intros s Hs; simpl; auto.
  specialize (Hf a s Hs). destruct (f a s) as [s' [u|e]]; cbn [fst] in *; auto.
Qed.

Lemma spread_frame a s : frame s (fst (spread_arc a s)).
Proof.
  destruct a as [[d w] o]. unfold spread_arc.
  match goal with |- context [match ?m with _ => _ end] => destruct m as [[nd|]|e] eqn:E end;
    cbn [fst]; try apply frame_refl.
  apply rbind_ok in E as (no & Ho & E). apply rbind_ok in E as (act & Ha & E).
  destruct act; [|discriminate]. apply rbind_ok in E as (e & He & E). apply rbind_ok in E as (nd0 & Hd & E).
  unfold dget_exn in Hd. destruct (dget (m_topo s) d) as [nd1|] eqn:Ed; [|discriminate].
  injection Hd as ->. injection E as <-.
  eapply frame_put_node; eauto.
Qed.
Lemma update_frame c s : frame s (fst (update_value c s)).
Proof.
  unfold update_value.
  match goal with |- context [match ?m with _ => _ end] => destruct m as [[n x]|e] eqn:E end;
    cbn [fst]; [|apply frame_refl].
  apply rbind_ok in E as (n' & Hn & E). unfold dget_exn in Hn.
  destruct (dget (m_topo s) c) as [n1|] eqn:En; [|discriminate]. injection Hn as ->.
  do 3 (apply rbind_ok in E as (? & ? & E)). injection E as -> _.
  set (s1 := put_node c (nd_set_aux [] n) s).
  assert (F1 : frame s s1) by (eapply frame_put_node; eauto).
  match goal with |- context [match ?m with _ => _ end] => destruct m as [r|e] eqn:E2 end; cbn [fst]; [|exact F1].
  set (s2 := put_node c (nd_set_value r (nd_set_aux [] n)) s1).
  assert (F2 : frame s1 s2).
  { eapply frame_put_node; [apply dget_dset_same|reflexivity]. }
  destruct (dget (m_exec s2) c); cbn [fst]; eapply frame_trans; eauto.
Qed.
Lemma inf_step_frame s : frame s (fst (inf_step s)).
Proof.
  unfold inf_step. pose proof (mfold_frame spread_arc (m_arcs s) s spread_frame) as F1.
  destruct (mfold spread_arc (m_arcs s) s) as [s1 [u|e]]; cbn [fst] in *; [|exact F1].
  pose proof (mfold_frame update_value (dkeys (m_exec s1)) s1 update_frame) as F2.
  destruct (mfold update_value (dkeys (m_exec s1)) s1) as [s2 [u'|e]]; cbn [fst] in *;
    [|eapply frame_trans; eauto].
  eapply frame_trans; [exact F1|]. eapply frame_trans; [exact F2|]. apply frame_iters.
Qed.
Lemma iter_loop_frame fuel e s : frame s (fst (iter_loop fuel e s)).
Proof.
  revert e s. induction fuel as [|f IH]; intros e s; simpl; destruct (0 <? e)%Z; cbn [fst]; try apply frame_refl.
  destruct (keep_execution s) as [k|x]; cbn [fst]; [|apply frame_refl].
  pose proof (inf_step_frame s) as F1. destruct (inf_step s) as [s1 [u|x]]; cbn [fst] in *; [|exact F1].
  eapply frame_trans; eauto.
Qed.
Lemma iterative_frame s : frame s (fst (iterative_inference s)).
Proof. unfold iterative_inference. eapply frame_trans; [apply (frame_iters s 1%Z)|]. apply iter_loop_frame. Qed.
Lemma reset_one_frame c s : frame s (fst (reset_one c s)).
Proof.
  unfold reset_one. destruct (dget (m_topo s) c) as [n|] eqn:E; cbn [fst]; [|apply frame_refl].
  set (s1 := put_node c (nd_set_aux [] n) s).
  assert (F1 : frame s s1) by (eapply frame_put_node; eauto).
  destruct (dget (m_exec s1) c) as [[|v h]|]; cbn [fst]; auto.
  eapply frame_trans; [exact F1|]. eapply frame_trans; [|apply frame_put_exec].
  eapply frame_put_node; [apply dget_dset_same|reflexivity].
Qed.
Lemma reset_frame s : frame s (fst (reset_execution s)).
Proof. apply mfold_frame. apply reset_one_frame. Qed.
Lemma clear_one_frame c s : frame s (fst (clear_one c s)).
Proof.
  unfold clear_one. destruct (dget (m_topo s) c) as [n|] eqn:E; cbn [fst]; [|apply frame_refl].
  eapply frame_trans; [|apply frame_put_exec]. eapply frame_put_node; eauto.
Qed.
Lemma clear_exec_frame s : frame s (fst (clear_execution s)).
Proof. apply mfold_frame. apply clear_one_frame. Qed.
Lemma finalize_frame c s : frame s (fst (finalize_one c s)).
Proof.
  unfold finalize_one. match goal with |- context [match ?m with _ => _ end] => destruct m as [n|e] eqn:E end;
    cbn [fst]; [|apply frame_refl].
  apply rbind_ok in E as (h & _ & E). apply rbind_ok in E as (n1 & Hn & E).
  apply rbind_ok in E as (dd & _ & E). apply rbind_ok in E as (v & _ & E). injection E as <-.
  unfold dget_exn in Hn. destruct (dget (m_topo s) c) eqn:En; [|discriminate]. injection Hn as ->.
  eapply frame_put_node; eauto.
Qed.
Lemma init_concept_frame c v r s : frame s (fst (init_concept c v r s)).
Proof.
  unfold init_concept. destruct (dget (m_topo s) c) as [n|] eqn:E.
  - match goal with |- context [match ?m with _ => _ end] => destruct m as [x|e] eqn:E2 end;
      cbn [fst]; [|apply frame_refl].
    eapply frame_trans; [apply (frame_put_exec s c [x])|]. eapply frame_put_node; eauto.
  - destruct r; apply frame_refl.
Qed.

(** weaker frame for runs: the vectorized engine also changes its prepared data *)
Definition wframe s s' : Prop :=
  statics s' = statics s /\ m_arcs s' = m_arcs s /\ settings s' = settings s.
Lemma wframe_refl s : wframe s s. Proof. repeat split. Qed.
Lemma wframe_trans s1 s2 s3 : wframe s1 s2 -> wframe s2 s3 -> wframe s1 s3.
Proof. unfold wframe. intros (?&?&?) (?&?&?). repeat split; congruence. Qed.
Lemma frame_wframe s s' : frame s s' -> wframe s s'.
Proof. unfold frame, wframe. tauto. Qed.
Lemma vectorized_wframe s : wframe s (fst (vectorized_inference s)).
Proof.
  unfold vectorized_inference.
  match goal with |- context [match ?m with _ => _ end] =>
    assert (W : wframe s (fst m)); [|destruct m as [s1 [c|e]]] end.
  { destruct (m_prepared s); [repeat split|]. destruct (prepare s); repeat split. }
  2: { exact W. }
  cbn [fst] in W. eapply wframe_trans; [exact W|]. clear W.
  destruct (vc_functions c); [repeat split|].
  match goal with |- context [match ?m with _ => _ end] =>
    match type of m with res (list F * bool * nat) => destruct m as [[[buf oob] k]|e] end end; [|repeat split].
  match goal with |- context [if ?b then _ else _] => destruct b end; repeat split.
Qed.
Lemma run_wframe r s : wframe s (fst (run_inference r s)).
Proof.
  unfold run_inference.
  assert (W1 : wframe s (fst (if r then reset_execution s else (s, Ok tt)))).
  { destruct r; [apply frame_wframe, reset_frame|apply wframe_refl]. }
  destruct (if r then reset_execution s else (s, Ok tt)) as [s1 [u|e]]; cbn [fst] in *; [|exact W1].
  assert (W2 : wframe s1 (fst (if m_debug s1 then iterative_inference s1 else vectorized_inference s1))).
  { destruct (m_debug s1); [apply frame_wframe, iterative_frame|apply vectorized_wframe]. }
  destruct (if m_debug s1 then iterative_inference s1 else vectorized_inference s1) as [s2 [u2|e]]; cbn [fst] in *;
    [|eapply wframe_trans; eauto].
  eapply wframe_trans; [exact W1|]. eapply wframe_trans; [exact W2|].
  apply frame_wframe. apply mfold_frame. apply finalize_frame.
Qed.

(** ** Reachable states *)
Definition Inv (I : fcm F -> Prop) : Prop := forall o s, I s -> I (fst (step o s)).
Lemma run_ops_inv (I : fcm F -> Prop) l s : Inv I -> I s -> I (run_ops l s).
Proof.
  intros HI. unfold run_ops. revert s. induction l as [|o l IH]; intros s Hs; simpl; auto.
Qed.
Lemma init_fcm_shape max_it extra stab sdiff dec mem act kw s :
  init_fcm max_it extra stab sdiff dec mem act kw = Ok s ->
  s = mkFcm [] [] [] stab max_it (if (0 <? extra)%Z then extra else 1%Z) sdiff dec mem act kw 1%Z n1
        (mkDC true "KOSKO" TYPE_SIMPLE None mem true act kw) true None false None false /\
  (exists d, get_decision_by_name dec = Some d) /\ (exists f, get_function_by_name act = Some f).
Proof.
  unfold init_fcm, set_map_decision_function. destruct (get_decision_by_name dec) as [d|]; [|discriminate].
  unfold set_map_activation_function. destruct (get_function_by_name act) as [f|]; [|discriminate].
  cbn. intros [= <-]. eauto.
Qed.

(** ** C15 / C16: names and relations *)
Definition wf1 s : Prop :=
  NoDup (dkeys (m_topo s)) /\ NoDup (dkeys (m_exec s)) /\
  (forall c, In c (dkeys (m_exec s)) -> In c (dkeys (m_topo s))) /\
  (forall d w o, In (d, w, o) (m_arcs s) -> In d (dkeys (m_topo s)) /\ In o (dkeys (m_topo s))).

Lemma dmem_str_mem {A} (d : dict A) k : dmem d k = str_mem k (dkeys d).
Proof.
  destruct (dmem d k) eqn:E; symmetry.
  - apply str_mem_In, dmem_In, E.
  - destruct (str_mem k (dkeys d)) eqn:E2; auto. apply str_mem_In, dmem_In in E2. congruence.
Qed.
(** what activation-function settings do not touch *)
Definition nd_base (n : node F) :=
  (nd_arcs n, nd_aux n, nd_value n, nd_sum n, nd_active n, nd_exec n, nd_type n, nd_fuzzy n, nd_mem n).
Lemma define_func_base n fa fn kw df : nd_base (fst (define_func n fa fn kw df)) = nd_base n.
Proof.
  unfold define_func. destruct fa; [reflexivity|]. destruct fn as [f|]; [|reflexivity].
  destruct (get_function_by_name f); reflexivity.
Qed.
Definition nd_fresh (n : node F) : Prop :=
  nd_arcs n = [] /\ nd_sum n = n0 /\ nd_aux n = [] /\ nd_value n = n0.
Lemma build_node_fresh dc t a m e d f k : nd_fresh (fst (build_node dc t a m e d f k)).
Proof.
  unfold build_node.
  destruct (match e with Some e => _ | None => _ end) as [ex|x]; [|cbn; repeat split].
  set (ty := match t with Some t => _ | None => _ end).
  set (n := nd_set_type ty _).
  match goal with |- context [match ?m with Ok _ => _ | Err _ => _ end] =>
    match type of m with res (node F * option (args F)) => destruct m as [[n1 fa]|x] eqn:E end end;
    [|repeat split].
  assert (B : nd_fresh n1).
  { revert E. destruct (is_fuzzy_type ty).
    - destruct d as [ad|].
      + intros H. apply rbind_ok in H as ([[v1 m1] s1] & _ & H). injection H as <- <-. repeat split.
      + destruct (String.eqb _ _).
        * intros H. apply rbind_ok in H as (fz & _ & H). injection H as <- <-. repeat split.
        * intros [= <- <-]. repeat split.
    - intros [= <- <-]. repeat split. }
  set (n2 := nd_set_mem _ n1).
  pose proof (define_func_base n2 fa f k (dc_func dc, dc_args dc)) as D.
  destruct (define_func n2 fa f k (dc_func dc, dc_args dc)) as [n3 r]. cbn [fst] in D.
  unfold nd_base in D. injection D as D1 D2 D3 D4 _ _ _ _ _.
  destruct B as (B1 & B2 & B3 & B4). destruct r; cbn [fst]; repeat split; cbn; congruence.
Qed.
Lemma add_concept_topo n t a m e d f k s :
  exists nd, m_topo (fst (add_concept n t a m e d f k s)) = dset (m_topo s) n nd /\
    nd = fst (build_node (m_default s) t a m e d f k).
Proof.
  unfold add_concept. cbn [m_default set_prepared].
  destruct (build_node (m_default s) t a m e d f k) as [nd r].
  exists nd. destruct r; split; reflexivity.
Qed.
Lemma step_names o s : dkeys (m_topo (fst (step o s))) = names_after o (snd (step o s)) (dkeys (m_topo s)).
Proof.
  destruct o; cbn [step names_after]; try reflexivity.
  - destruct (add_concept_topo name ctype is_active use_memory excitation d fname kwargs s) as (nd & E & _).
    rewrite E, dkeys_dset, dmem_str_mem. reflexivity.
  - unfold set_concept_properties. destruct (dget (m_topo s) name) as [n|] eqn:E; [|reflexivity].
    destruct (update_node _ _ _ _ _ _ _ _ _) as [nd r]. cbn [fst snd put_node set_topo m_topo set_prepared].
    rewrite dkeys_dset. assert (dmem (m_topo s) name = true) as -> by (unfold dmem; now rewrite E). reflexivity.
  - unfold set_default_concept_properties. destruct (update_default _ _ _ _ _ _ _ _ _) as [dd r]. reflexivity.
  - unfold add_relation. cbn [m_topo set_prepared].
    destruct (dget (m_topo s) destiny) as [nd|] eqn:Ed; [|reflexivity].
    destruct (dget (m_topo s) origin) as [no|] eqn:Eo; [|reflexivity].
    cbn [m_topo put_node set_topo set_prepared].
    assert (K : forall t k (n : node F), (exists x, dget t k = Some x) -> dkeys (dset t k n) = dkeys t).
    { intros t k n Hx. rewrite dkeys_dset. apply dget_Some_In, dmem_In in Hx. now rewrite Hx. }
    rewrite dget_dset. destruct (String.eqb_spec destiny origin) as [->|Hne].
    + match goal with |- context [match ?m with Ok _ => _ | Err _ => _ end] => destruct m as [n2|x] end;
        cbn [fst m_topo put_node set_topo set_arcs].
      * rewrite !K; auto; eexists; rewrite ?dget_dset_same; eauto.
      * rewrite !K; auto; eexists; rewrite ?dget_dset_same; eauto.
    + rewrite Ed. match goal with |- context [match ?m with Ok _ => _ | Err _ => _ end] => destruct m as [n2|x] end;
        cbn [fst m_topo put_node set_topo set_arcs].
      * rewrite !K; auto; eexists; rewrite ?dget_dset_same; eauto; rewrite dget_dset_other; eauto.
      * rewrite !K; auto; eexists; rewrite ?dget_dset_same; eauto; rewrite dget_dset_other; eauto.
  - apply statics_keys. apply init_concept_frame.
  - unfold set_map_activation_function. destruct (get_function_by_name name); [|reflexivity].
    apply (mfold_ind (fun s' => dkeys (m_topo s') = dkeys (m_topo s))); [|reflexivity].
    intros c s' H. unfold refresh_func. destruct (dget (m_topo s') c) as [n|] eqn:E; cbn [fst]; auto.
    destruct (nd_usemap n) as [[|]|]; cbn [fst]; auto. cbn [m_topo put_node set_topo].
    rewrite dkeys_dset. assert (dmem (m_topo s') c = true) as -> by (unfold dmem; now rewrite E). exact H.
  - unfold set_map_decision_function. destruct (get_decision_by_name name); reflexivity.
  - apply statics_keys. apply reset_frame.
  - apply statics_keys. apply clear_exec_frame.
  - unfold clear_all. pose proof (statics_keys _ _ (proj1 (reset_frame s))) as H.
    destruct (reset_execution s) as [s1 [u|e]]; cbn in *; auto.
  - apply statics_keys. apply run_wframe.
Qed.
(** ** histories: which entries a call may write *)
Inductive exec_ev (Q : list F -> Prop) (keys : list string) (e : dict (list F)) : dict (list F) -> Prop :=
| ee_refl : exec_ev Q keys e e
| ee_set e' c h : exec_ev Q keys e e' -> In c keys -> Q h -> exec_ev Q keys e (dset e' c h).
Lemma exec_ev_trans Q keys e1 e2 e3 : exec_ev Q keys e1 e2 -> exec_ev Q keys e2 e3 -> exec_ev Q keys e1 e3.
Proof. induction 2; auto. constructor; auto. Qed.
Definition ev (Q : list F -> Prop) s s' : Prop :=
  wframe s s' /\ exec_ev Q (dkeys (m_topo s)) (m_exec s) (m_exec s').
Lemma ev_refl Q s : ev Q s s.
Proof. split; [apply wframe_refl|constructor]. Qed.
Lemma ev_trans Q s1 s2 s3 : ev Q s1 s2 -> ev Q s2 s3 -> ev Q s1 s3.
Proof.
  intros [W1 E1] [W2 E2]. split; [eapply wframe_trans; eauto|].
  rewrite (statics_keys _ _ (proj1 W1)) in E2. eapply exec_ev_trans; eauto.
Qed.
Lemma ev_weaken (Q Q' : list F -> Prop) s s' : (forall h, Q h -> Q' h) -> ev Q s s' -> ev Q' s s'.
Proof.
  intros HQ [W E]. split; auto. induction E; constructor; auto.
Qed.
Definition nonempty (h : list F) : Prop := h <> [].
Lemma mfold_ev Q {A} (f : A -> fcm F -> fcm F * res unit) l s :
  (forall a s, ev Q s (fst (f a s))) -> ev Q s (fst (mfold f l s)).
Proof.
  intros Hf. revert s. induction l as [|a l IH]; intros s; simpl; [apply ev_refl|].
  specialize (Hf a s). destruct (f a s) as [s' [u|e]]; cbn [fst] in *; [|exact Hf].
  eapply ev_trans; eauto.
Qed.
Lemma spread_exec a s : m_exec (fst (spread_arc a s)) = m_exec s.
Proof.
  destruct a as [[d w] o]. unfold spread_arc.
  match goal with |- context [match ?m with _ => _ end] => destruct m as [[nd|]|e] end; reflexivity.
Qed.
Lemma spread_ev a s : ev nonempty s (fst (spread_arc a s)).
Proof. split; [apply frame_wframe, spread_frame|]. rewrite spread_exec. constructor. Qed.
Lemma update_ev c s : ev nonempty s (fst (update_value c s)).
Proof.
  split; [apply frame_wframe, update_frame|]. unfold update_value.
  match goal with |- context [match ?m with _ => _ end] => destruct m as [[n x]|e] eqn:E end; [|constructor].
  match goal with |- context [match ?m with Ok _ => _ | Err _ => _ end] => destruct m as [r|e] end; [|constructor].
  cbn [m_exec put_node set_topo]. destruct (dget (m_exec s) c) as [h|] eqn:Eh; cbn; [|constructor].
  apply ee_set; [constructor| |unfold nonempty; intros H; now apply app_eq_nil in H as [_ H]].
  apply rbind_ok in E as (n' & Hn & _). unfold dget_exn in Hn.
  destruct (dget (m_topo s) c) eqn:En; [|discriminate]. apply dget_Some_In. eauto.
Qed.
Lemma reset_one_ev c s : ev nonempty s (fst (reset_one c s)).
Proof.
  split; [apply frame_wframe, reset_one_frame|]. unfold reset_one.
  destruct (dget (m_topo s) c) as [n|] eqn:E; cbn [fst]; [|constructor].
  cbn [m_exec put_node set_topo]. destruct (dget (m_exec s) c) as [[|v h]|]; cbn; try constructor.
  - constructor.
  - apply dget_Some_In. eauto.
  - discriminate.
Qed.
Lemma clear_one_ev c s : ev nonempty s (fst (clear_one c s)).
Proof.
  split; [apply frame_wframe, clear_one_frame|]. unfold clear_one.
  destruct (dget (m_topo s) c) as [n|] eqn:E; cbn; constructor; [constructor| |discriminate].
  apply dget_Some_In. eauto.
Qed.
Lemma finalize_ev c s : ev nonempty s (fst (finalize_one c s)).
Proof.
  split; [apply frame_wframe, finalize_frame|]. unfold finalize_one.
  match goal with |- context [match ?m with _ => _ end] => destruct m as [n|e] end; constructor.
Qed.
Lemma init_concept_ev c v r s : ev nonempty s (fst (init_concept c v r s)).
Proof.
  split; [apply frame_wframe, init_concept_frame|]. unfold init_concept.
  destruct (dget (m_topo s) c) as [n|] eqn:E; [|destruct r; constructor].
  match goal with |- context [match ?m with _ => _ end] => destruct m as [x|e] end; cbn; constructor;
    [constructor| |discriminate]. apply dget_Some_In. eauto.
Qed.
Lemma reset_ev s : ev nonempty s (fst (reset_execution s)).
Proof. apply mfold_ev, reset_one_ev. Qed.
Lemma clear_exec_ev s : ev nonempty s (fst (clear_execution s)).
Proof. apply mfold_ev, clear_one_ev. Qed.
Lemma inf_step_ev s : ev nonempty s (fst (inf_step s)).
Proof.
  unfold inf_step. pose proof (mfold_ev nonempty spread_arc (m_arcs s) s spread_ev) as F1.
  destruct (mfold spread_arc (m_arcs s) s) as [s1 [u|e]]; cbn [fst] in *; [|exact F1].
  pose proof (mfold_ev nonempty update_value (dkeys (m_exec s1)) s1 update_ev) as F2.
  destruct (mfold update_value (dkeys (m_exec s1)) s1) as [s2 [u'|e]]; cbn [fst] in *;
    [|eapply ev_trans; eauto].
  eapply ev_trans; [exact F1|]. eapply ev_trans; [exact F2|]. split; [repeat split|constructor].
Qed.
Lemma iter_loop_ev fuel e s : ev nonempty s (fst (iter_loop fuel e s)).
Proof.
  revert e s. induction fuel as [|f IH]; intros e s; simpl; destruct (0 <? e)%Z; cbn [fst]; try apply ev_refl.
  destruct (keep_execution s) as [k|x]; cbn [fst]; [|apply ev_refl].
  pose proof (inf_step_ev s) as F1. destruct (inf_step s) as [s1 [u|x]]; cbn [fst] in *; [|exact F1].
  eapply ev_trans; eauto.
Qed.
Lemma iterative_ev s : ev nonempty s (fst (iterative_inference s)).
Proof.
  unfold iterative_inference. apply (ev_trans nonempty s (set_iters 1%Z s)).
  - split; [repeat split|constructor].
  - apply iter_loop_ev.
Qed.
Lemma vectorized_ev s : ev (fun _ => True) s (fst (vectorized_inference s)).
Proof.
  split; [apply vectorized_wframe|].
  unfold vectorized_inference.
  match goal with |- context [match ?m with _ => _ end] =>
    assert (W : m_topo (fst m) = m_topo s /\ m_exec (fst m) = m_exec s); [|destruct m as [s1 [c|e]]] end.
  { destruct (m_prepared s); [repeat split|]. destruct (prepare s); repeat split. }
  2: { cbn in *. destruct W as [_ ->]. constructor. }
  cbn [fst] in W. destruct W as [<- <-].
  destruct (vc_functions c); [constructor|].
  match goal with |- context [match ?m with _ => _ end] =>
    match type of m with res (list F * bool * nat) => destruct m as [[[buf oob] k]|e] end end; [|constructor].
  match goal with |- context [if ?b then _ else _] => destruct b end; [constructor|].
  cbn [fst m_exec set_exec m_topo set_cache set_oob m_maxit].
  match goal with |- context [fold_left ?f _ _] => set (g := f) end.
  remember (dkeys (m_topo s1)) as keys eqn:Ek. clear Ek.
  assert (G : forall l e, (forall p, In p l -> In (snd p) keys) ->
     exec_ev (fun _ => True) keys e (fold_left g l e)).
  { intros ll; induction ll as [|p ll IH]; intros e Hl; simpl; [constructor|].
    eapply exec_ev_trans; [|apply IH; intros; apply Hl; now right].
    unfold g. constructor; auto; [constructor|]. apply Hl. now left. }
  apply G. intros [i x] Hin. cbn. now apply in_combine_r in Hin.
Qed.
Lemma run_ev r s : ev (fun _ => True) s (fst (run_inference r s)).
Proof.
  unfold run_inference.
  assert (W1 : ev (fun _ => True) s (fst (if r then reset_execution s else (s, Ok tt)))).
  { destruct r; [eapply ev_weaken, reset_ev; auto|apply ev_refl]. }
  destruct (if r then reset_execution s else (s, Ok tt)) as [s1 [u|e]]; cbn [fst] in *; [|exact W1].
  assert (W2 : ev (fun _ => True) s1 (fst (if m_debug s1 then iterative_inference s1 else vectorized_inference s1))).
  { destruct (m_debug s1); [eapply ev_weaken, iterative_ev; auto|apply vectorized_ev]. }
  destruct (if m_debug s1 then iterative_inference s1 else vectorized_inference s1) as [s2 [u2|e]]; cbn [fst] in *;
    [|eapply ev_trans; eauto].
  eapply ev_trans; [exact W1|]. eapply ev_trans; [exact W2|].
  eapply ev_weaken; [|apply mfold_ev; apply finalize_ev]. auto.
Qed.
Lemma run_ev_iter r s : m_debug s = true -> ev nonempty s (fst (run_inference r s)).
Proof.
  intros D. unfold run_inference.
  assert (W1 : ev nonempty s (fst (if r then reset_execution s else (s, Ok tt)))).
  { destruct r; [apply reset_ev; auto|apply ev_refl]. }
  destruct (if r then reset_execution s else (s, Ok tt)) as [s1 [u|e]]; cbn [fst] in *; [|exact W1].
  assert (D1 : m_debug s1 = true).
  { destruct W1 as [(_ & _ & S) _]. unfold settings in S. congruence. }
  rewrite D1. pose proof (iterative_ev s1) as W2.
  destruct (iterative_inference s1) as [s2 [u2|e]]; cbn [fst] in *;
    [|eapply ev_trans; eauto].
  eapply ev_trans; [exact W1|]. eapply ev_trans; [exact W2|]. apply mfold_ev; apply finalize_ev.
Qed.

(** ** exec keys *)
Lemma exec_ev_keys_eq Q keys e e' : exec_ev Q keys e e' -> dkeys e = keys -> dkeys e' = keys.
Proof.
  induction 1; auto. intros E. specialize (IHexec_ev E). rewrite dkeys_dset.
  assert (dmem e' c = true) as -> by (apply dmem_In; rewrite IHexec_ev; auto). auto.
Qed.
Lemma exec_ev_wf Q keys e e' : exec_ev Q keys e e' ->
  NoDup (dkeys e) -> (forall c, In c (dkeys e) -> In c keys) ->
  NoDup (dkeys e') /\ (forall c, In c (dkeys e') -> In c keys).
Proof.
  intros H HN HS. induction H as [|e' c h H [IH1 IH2] Hc HQ]; auto.
  split; [now apply NoDup_dset|]. intros x Hx. apply dkeys_dset_In in Hx as [->|Hx]; auto.
Qed.
Lemma exec_ev_nonempty keys e e' : exec_ev nonempty keys e e' ->
  (forall c h, dget e c = Some h -> h <> []) -> forall c h, dget e' c = Some h -> h <> [].
Proof.
  intros H HN. induction H as [|e' c h H IH Hc HQ]; auto.
  intros c' h' Hg. rewrite dget_dset in Hg. destruct (String.eqb c' c); [injection Hg as <-; exact HQ|eauto].
Qed.

(** ** relations *)
Lemma statics_arcs_ev Q s s' : ev Q s s' -> m_arcs s' = m_arcs s.
Proof. intros [(_ & H & _) _]. exact H. Qed.
Lemma str_mem_dget {A} (d : dict A) k : str_mem k (dkeys d) = match dget d k with Some _ => true | None => false end.
Proof. rewrite <- dmem_str_mem. reflexivity. Qed.
Lemma step_relations o s :
  relations (fst (step o s)) = relations_after o (snd (step o s)) (concepts s) (relations s).
Proof.
  unfold relations, concepts. destruct o; cbn [step relations_after]; try reflexivity;
  try (match goal with |- map _ (m_arcs (fst ?x)) = _ => assert (A : m_arcs (fst x) = m_arcs s); [|rewrite A; destruct (snd x); reflexivity] end).
  - unfold add_concept. destruct (build_node _ _ _ _ _ _ _ _) as [nd [u|e]]; reflexivity.
  - unfold set_concept_properties. destruct (dget (m_topo s) name); [|reflexivity].
    destruct (update_node _ _ _ _ _ _ _ _ _); reflexivity.
  - unfold set_default_concept_properties. destruct (update_default _ _ _ _ _ _ _ _ _); reflexivity.
  - unfold add_relation. cbn [m_topo set_prepared].
    rewrite !str_mem_dget.
    destruct (dget (m_topo s) destiny) as [nd|] eqn:Ed; destruct (dget (m_topo s) origin) as [no|] eqn:Eo;
      cbn [andb fst snd]; try reflexivity.
    cbn [m_topo put_node set_topo set_prepared].
    match goal with |- context [match ?m with Some _ => _ | None => _ end] => destruct m as [nd2|] eqn:E2 end.
    + match goal with |- context [match ?m with Ok _ => _ | Err _ => _ end] => destruct m as [n2|x] end; cbn.
      * now rewrite map_app.
      * reflexivity.
    + exfalso. rewrite dget_dset in E2. destruct (String.eqb destiny origin); congruence.
  - eapply statics_arcs_ev, init_concept_ev.
  - unfold set_map_activation_function. destruct (get_function_by_name name); [|reflexivity].
    apply (mfold_ind (fun s' => m_arcs s' = m_arcs s)); [|reflexivity].
    intros c s' H. unfold refresh_func. destruct (dget (m_topo s') c) as [n|] eqn:E; cbn [fst]; auto.
    destruct (nd_usemap n) as [[|]|]; cbn [fst]; auto.
  - unfold set_map_decision_function. destruct (get_decision_by_name name); reflexivity.
  - eapply statics_arcs_ev, reset_ev.
  - eapply statics_arcs_ev, clear_exec_ev.
  - unfold clear_all. pose proof (statics_arcs_ev _ _ _ (reset_ev s)) as H.
    destruct (reset_execution s) as [s1 [u|e]]; cbn in *; [reflexivity|]. now rewrite H.
  - eapply statics_arcs_ev, run_ev.
Qed.
Definition rel_ok (names : list string) (rels : list (string * string * F)) : Prop :=
  forall a b w, In (a, b, w) rels -> In a names /\ In b names.
Lemma rel_ok_after (o : op F) r names rels : rel_ok names rels -> rel_ok (names_after o r names) (relations_after o r names rels).
Proof.
  intros H. destruct o; cbn; auto.
  - intros a b w Hin. apply H in Hin as [H1 H2].
    destruct (str_mem name names); auto. split; apply in_or_app; auto.
  - destruct r as [u|x]; auto. destruct (str_mem origin names && str_mem destiny names) eqn:E; auto.
    apply andb_prop in E as [E1 E2]. intros a b w Hin. apply in_app_or in Hin as [Hin|[Hin|[]]]; [eauto|].
    injection Hin as <- <- <-. split; now apply str_mem_In.
  - destruct r as [u|x]; auto. intros a b w [].
Qed.
Lemma inv_rel_ok : Inv (fun s => rel_ok (concepts s) (relations s)).
Proof.
  intros o s H. rewrite step_relations. unfold concepts at 1. rewrite step_names. now apply rel_ok_after.
Qed.
Lemma reachable_rel_ok s : reachable s -> rel_ok (concepts s) (relations s).
Proof.
  intros (mi & ex & st & sd & de & me & ac & kw & s0 & ops & H & ->).
  apply (run_ops_inv (fun s => rel_ok (concepts s) (relations s))); [apply inv_rel_ok|].
  apply init_fcm_shape in H as [-> _]. intros a b w [].
Qed.
Lemma run_ops_names ops s : concepts (run_ops ops s) = expected_names ops s (concepts s).
Proof.
  unfold run_ops. revert s. induction ops as [|o l IH]; intros s; simpl; auto.
  rewrite IH. f_equal. apply step_names.
Qed.
Lemma names_after_NoDup (o : op F) r names : NoDup names -> NoDup (names_after o r names).
Proof.
  intros H. destruct o; cbn; auto.
  - destruct (str_mem name names) eqn:E; auto. apply NoDup_snoc; auto.
    intros Hin. apply str_mem_In in Hin. congruence.
  - destruct r; auto. constructor.
Qed.
Lemma reachable_NoDup s : reachable s -> NoDup (concepts s).
Proof.
  intros (mi & ex & st & sd & de & me & ac & kw & s0 & ops & H & ->).
  apply (run_ops_inv (fun s => NoDup (concepts s))).
  - intros o s Hs. unfold concepts. rewrite step_names. now apply names_after_NoDup.
  - apply init_fcm_shape in H as [-> _]. constructor.
Qed.
Lemma add_relation_unknown a b w s : ~ In a (concepts s) \/ ~ In b (concepts s) ->
  add_relation a b w s = (set_prepared false s, Ok tt).
Proof.
  intros H. unfold add_relation. cbn [m_topo set_prepared].
  destruct (dget (m_topo s) b) as [nb|] eqn:Eb; auto. destruct (dget (m_topo s) a) as [na|] eqn:Ea; auto.
  exfalso. destruct H as [H|H]; apply H; apply dget_Some_In; eauto.
Qed.
End Inv.
