(** PropConcept.v — what add_concept, set_concept_properties and
    set_default_concept_properties do to a concept (C82-C84). *)
From Coq Require Import Permutation QArith.
From Verif Require Import Base Num QNum Functions Spec SortFacts Fcm FcmSpec BaseFacts FcmInv FcmInv2 FcmBasics.
Local Close Scope Q_scope.

Section Concept.
Context {F : Type} {N : Num F}.

(** ** Specification *)
Definition given {A} (o : option A) (d : A) : A := match o with Some a => a | None => d end.
(** [o] if given, the old value otherwise *)
Definition updated {A} (o old : option A) : option A := match o with Some a => Some a | None => old end.
Definition fuzzy_kind (t : option string) : Prop := t = Some TYPE_FUZZY \/ t = Some TYPE_REGRESOR.
(** the points of [d] ordered by value *)
Definition ordered (d : adict F) (vals memb : list F) : Prop :=
  Permutation (combine vals memb) (combine (ad_vals d) (ad_memb d)) /\ length vals = length memb /\
  sorted_between nleb vals 0 (Z.of_nat (length vals) - 1).
(** values moved by the size of the first and divided by the resulting range *)
Definition rescaled (vals scaled : list F) : Prop :=
  exists lo hi, nth_error vals 0 = Some lo /\ nth_error vals (length vals - 1) = Some hi /\
    scaled = map (fun v => ndiv (nadd v (nabs lo)) (nadd (nabs lo) hi)) vals.
(** function [fn] with arguments [ar] results from the arguments [d] (activation_dict),
    [f] (activation_function) and [k] (keyword arguments) for a concept of type [t];
    [own]: the concept does not follow the map's function; [curve]: stored points *)
Definition chosen (t : option string) (d : option (adict F)) (f : option string) (k : args F) (dflt : string * args F)
    (old : option (list F * list F)) (fn : string) (ar : args F) (own : bool) (curve : option (list F * list F)) : Prop :=
  match d with
  | Some d => fn = "fuzzy" /\ own = true /\
      ((fuzzy_kind t /\ exists vals memb scaled, ordered d vals memb /\ rescaled vals scaled /\
          ar = [("val_list", AVec scaled); ("membership", AVec memb)] /\ curve = Some (memb, vals)) \/
       (~ fuzzy_kind t /\ curve = old /\ exists wrap, (wrap = (fun l => AVec l) \/ wrap = (fun l => ALst l)) /\
          ar = [("membership", wrap (ad_memb d)); ("val_list", wrap (ad_vals d))]))
  | None => curve = old /\
      match f with
      | Some g => fn = g /\ ar = k /\ own = true /\ get_function_by_name g <> None
      | None => fn = fst dflt /\ ar = snd dflt /\ own = false
      end
  end.
(** a description whose values can be sorted *)
Definition sortable (P : F -> Prop) (d : option (adict F)) : Prop :=
  forall x, d = Some x -> Forall P (ad_vals x) /\ length (ad_memb x) = length (ad_vals x).

(** ** Facts *)
Lemma fuzzy_kind_b t : is_fuzzy_type t = true <-> fuzzy_kind (Some t).
Proof.
  unfold is_fuzzy_type, fuzzy_kind. rewrite orb_true_iff, !String.eqb_eq. split; intros [H|H]; [left|right|left|right]; congruence.
Qed.
Lemma processed P d vals memb scaled : total_preorder nleb P -> Forall P (ad_vals d) -> length (ad_memb d) = length (ad_vals d) ->
  process_activation_dict d = Ok (vals, memb, scaled) -> ordered d vals memb /\ rescaled vals scaled.
Proof.
  intros HP Hv Hl H. unfold process_activation_dict in H.
  destruct (dual_quick_sort_spec nleb P HP (ad_vals d) (ad_memb d) 0 (Z.of_nat (length (ad_vals d)) - 1)) as (a & m & E & HR & HS); try lia; auto.
  rewrite E in H. cbn [rbind] in H. pose proof (proj1 HR) as L1. pose proof (proj1 (proj2 HR)) as L2.
  apply rearr_Permutation in HR; [|lia]. unfold lget in H.
  destruct (nth_error a 0) as [lo|] eqn:E0; [|discriminate]. cbn [rbind] in H.
  destruct (nth_error a (length a - 1)) as [hi|] eqn:E1; [|discriminate]. cbn [rbind] in H.
  injection H as <- <- <-. split.
  - split; auto. split; [lia|]. rewrite L1. exact HS.
  - exists lo, hi. auto.
Qed.

Lemma define_ok (n : node F) fargs f k dflt n' : define_func n fargs f k dflt = (n', Ok tt) ->
  nd_arcs n' = nd_arcs n /\ nd_aux n' = nd_aux n /\ nd_value n' = nd_value n /\ nd_sum n' = nd_sum n /\ nd_active n' = nd_active n /\
  nd_exec n' = nd_exec n /\ nd_type n' = nd_type n /\ nd_fuzzy n' = nd_fuzzy n /\ nd_mem n' = nd_mem n /\
  exists fn ar own, nd_func n' = Some fn /\ nd_args n' = Some ar /\ nd_usemap n' = Some (negb own) /\
    match fargs with
    | Some a => fn = "fuzzy" /\ ar = a /\ own = true
    | None => match f with
              | Some g => fn = g /\ ar = k /\ own = true /\ get_function_by_name g <> None
              | None => fn = fst dflt /\ ar = snd dflt /\ own = false end
    end.
Proof.
  unfold define_func. intros H. destruct fargs as [a|]; [|destruct f as [g|]; [destruct (get_function_by_name g) eqn:E; [|discriminate]|]];
    injection H as <-; cbn; repeat (split; [reflexivity|]).
  - exists "fuzzy", a, true. now repeat split.
  - exists g, k, true. repeat (split; [reflexivity|]). discriminate.
  - exists (fst dflt), (snd dflt), false. now repeat split.
Qed.

(** ** C82 *)
Theorem C82_effect : forall P c t a m e d f k (s s' : fcm F) n, total_preorder nleb P -> sortable P d ->
  dget (m_topo s) c = Some n -> set_concept_properties c t a m e d f k s = (s', Ok tt) ->
  exists n', dget (m_topo s') c = Some n' /\ (forall c', c' <> c -> dget (m_topo s') c' = dget (m_topo s) c') /\
    concepts s' = concepts s /\ relations s' = relations s /\ m_exec s' = m_exec s /\ settings s' = settings s /\ m_iters s' = m_iters s /\
    m_prepared s' = false /\
    nd_arcs n' = nd_arcs n /\ nd_value n' = nd_value n /\ nd_sum n' = nd_sum n /\
    nd_active n' = updated a (nd_active n) /\
    (nd_exec n' = updated e (nd_exec n) /\ forall x, e = Some x -> x = "KOSKO" \/ x = "PAPAGEORGIUS") /\
    (nd_type n' = updated t (nd_type n) /\ forall x, t = Some x -> is_valid_type x = true) /\
    nd_mem n' = Some (given m (m_mem s)) /\
    exists fn ar own, nd_func n' = Some fn /\ nd_args n' = Some ar /\ nd_usemap n' = Some (negb own) /\
      chosen t d f k (m_func s, m_gargs s) (nd_fuzzy n) fn ar own (nd_fuzzy n').
Proof.
  intros P c t a m e d f k s s' n HP Hd Hn H. unfold set_concept_properties in H. rewrite Hn in H.
  destruct (update_node (set_prepared false s) n t a m e d f k) as [n' r] eqn:E. injection H as <- ->. exists n'.
  cbn [put_node set_topo m_topo set_prepared m_exec m_iters m_prepared]. split; [apply dget_dset_same|].
  split; [intros c' Hc; now apply dget_dset_other|]. split.
  { unfold concepts. cbn [put_node set_topo m_topo set_prepared]. rewrite dkeys_dset. destruct (dmem (m_topo s) c) eqn:Em; auto. unfold dmem in Em. rewrite Hn in Em. discriminate. }
  do 5 (split; [reflexivity|]).
  unfold update_node in E. set (na := match a with Some b => nd_set_active b n | None => n end) in E.
  assert (Aa : nd_active na = updated a (nd_active n)) by (unfold na; now destruct a).
  assert (Ar : nd_set_active true na = nd_set_active true n) by (unfold na; now destruct a).
  destruct (match e with Some e => match get_excitation_by_name e with Some _ => Ok (nd_set_exec e na) | None => Err (EExc (append "Unknown excitation function: " e)) end | None => Ok na end) as [ne|] eqn:E1; [|discriminate].
  assert (Ae : (nd_exec ne = updated e (nd_exec n) /\ (forall x, e = Some x -> x = "KOSKO" \/ x = "PAPAGEORGIUS")) /\
               nd_active ne = nd_active na /\ nd_set_exec "" (nd_set_active true ne) = nd_set_exec "" (nd_set_active true n)).
  { assert (X : nd_exec na = nd_exec n) by (unfold na; now destruct a). destruct e as [x|].
    - unfold get_excitation_by_name in E1.
      destruct (String.eqb_spec x "KOSKO"); [|destruct (String.eqb_spec x "PAPAGEORGIUS"); [|discriminate]]; injection E1 as <-; cbn;
        (split; [split; auto; intros y Hy; injection Hy as <-; auto|]); (split; auto); unfold na; now destruct a.
    - injection E1 as <-. split; [split; [auto|discriminate]|]. split; auto. now rewrite Ar. }
  destruct Ae as (Ae & Aa' & Ar'). clear E1 Ar.
  destruct (match t with Some t => if is_valid_type t then Ok (nd_set_type t ne) else Err (EExc "Unknown node type") | None => Ok ne end) as [nt|] eqn:E2; [|discriminate].
  assert (At : (nd_type nt = updated t (nd_type n) /\ (forall x, t = Some x -> is_valid_type x = true)) /\
     nd_active nt = nd_active ne /\ nd_exec nt = nd_exec ne /\ nd_arcs nt = nd_arcs n /\ nd_value nt = nd_value n /\ nd_sum nt = nd_sum n /\ nd_fuzzy nt = nd_fuzzy n).
  { injection Ar' as R1 R2 R3 R4 R5 R6 R7 R8 R9 R10 R11. destruct t as [x|].
    - destruct (is_valid_type x) eqn:V; [|discriminate]. injection E2 as <-. cbn. repeat (split; auto). intros y Hy. injection Hy as <-. exact V.
    - injection E2 as <-. repeat (split; auto). discriminate. }
  destruct At as (At & B1 & B2 & B3 & B4 & B5 & B6). clear E2.
  destruct (match t, d with
            | Some t, Some d => if is_fuzzy_type t then ('(vals, memb, scaled) <- process_activation_dict d ;; Ok (nd_set_fuzzy (memb, vals) nt, Some (scaled_args memb scaled)))%res else Ok (nt, Some (raw_args d))
            | None, Some d => Ok (nt, Some (raw_args d))
            | _, None => Ok (nt, None) end) as [[nf fargs]|] eqn:E3; [|discriminate].
  apply define_ok in E as (C1 & C2 & C3 & C4 & C5 & C6 & C7 & C8 & C9 & fn & ar & own & D1 & D2 & D3 & D4). cbn in C1, C2, C3, C4, C5, C6, C7, C8, C9.
  assert (G : nd_arcs nf = nd_arcs nt /\ nd_value nf = nd_value nt /\ nd_sum nf = nd_sum nt /\ nd_active nf = nd_active nt /\ nd_exec nf = nd_exec nt /\ nd_type nf = nd_type nt).
  { destruct t as [x|], d as [y|]; try (now injection E3 as <- <-).
    destruct (is_fuzzy_type x); [|now injection E3 as <- <-]. destruct (process_activation_dict y) as [[[? ?] ?]|]; [|discriminate]. now injection E3 as <- <-. }
  destruct G as (G1 & G2 & G3 & G4 & G5 & G6).
  split; [congruence|]. split; [congruence|]. split; [congruence|]. split; [congruence|].
  split; [destruct Ae; split; auto; congruence|]. split; [destruct At; split; auto; congruence|]. split; [now rewrite C9; destruct m|].
  exists fn, ar, own. do 3 (split; [assumption|]). unfold chosen. destruct d as [y|].
  - destruct (Hd y eq_refl) as [V1 V2].
    assert (W : (fuzzy_kind t /\ exists vals memb scaled, process_activation_dict y = Ok (vals, memb, scaled) /\ nf = nd_set_fuzzy (memb, vals) nt /\ fargs = Some (scaled_args memb scaled)) \/
                (~ fuzzy_kind t /\ nf = nt /\ fargs = Some (raw_args y))).
    { destruct t as [x|].
      - destruct (is_fuzzy_type x) eqn:Z.
        + left. split; [now apply fuzzy_kind_b|]. destruct (process_activation_dict y) as [[[vals memb] scaled]|]; [|discriminate]. injection E3 as <- <-. eauto 6.
        + right. split; [intros Q; apply fuzzy_kind_b in Q; congruence|]. now injection E3 as <- <-.
      - right. split; [intros [|]; discriminate|]. now injection E3 as <- <-. }
    destruct W as [(W1 & vals & memb & scaled & W2 & W3 & W4)|(W1 & W3 & W4)]; subst fargs; destruct D4 as (D4 & D5 & D6); repeat (split; [assumption|]).
    + left. split; auto. destruct (processed P y vals memb scaled HP V1 V2 W2) as [W5 W6]. exists vals, memb, scaled. repeat (split; auto). rewrite C8, W3. reflexivity.
    + right. split; auto. split; [congruence|]. subst ar. unfold raw_args. destruct (ad_arr y); eauto.
  - assert (W : nf = nt /\ fargs = None) by (destruct t; now injection E3 as <- <-). destruct W as [-> ->]. split; [congruence|]. exact D4.
Qed.
(** a failing call: everything but the one concept is as before, and that
    concept's relations, value and incoming weights *)
Theorem C82_failure : forall c t a m e d f k (s s' : fcm F) x, set_concept_properties c t a m e d f k s = (s', Err x) ->
  concepts s' = concepts s /\ relations s' = relations s /\ m_exec s' = m_exec s /\ settings s' = settings s /\
  (forall c', c' <> c -> dget (m_topo s') c' = dget (m_topo s) c') /\
  (~ In c (concepts s) -> s' = s /\ x = EExc ("Concept " ++ c ++ " not found")%string) /\
  forall n, dget (m_topo s) c = Some n -> exists n', dget (m_topo s') c = Some n' /\
    nd_arcs n' = nd_arcs n /\ nd_value n' = nd_value n /\ nd_sum n' = nd_sum n.
Proof.
  intros c t a m e d f k s s' x H. unfold set_concept_properties in H. destruct (dget (m_topo s) c) as [n|] eqn:Hn.
  2: { injection H as <- <-. repeat (split; auto). intros n Hn'. discriminate. }
  destruct (update_node (set_prepared false s) n t a m e d f k) as [n' r] eqn:E. injection H as <- ->.
  split. { unfold concepts. cbn [put_node set_topo m_topo set_prepared]. rewrite dkeys_dset. destruct (dmem (m_topo s) c) eqn:Em; auto. unfold dmem in Em. rewrite Hn in Em. discriminate. }
  do 3 (split; [reflexivity|]). cbn [put_node set_topo m_topo set_prepared].
  split; [intros c' Hc; now apply dget_dset_other|]. split.
  { intros Hc. exfalso. apply Hc. apply dget_Some_In. eauto. }
  intros n1 Hn1. injection Hn1 as <-. exists n'. split; [apply dget_dset_same|].
  assert (D : forall n fa f k df n' r, define_func (F := F) n fa f k df = (n', r) -> nd_arcs n' = nd_arcs n /\ nd_value n' = nd_value n /\ nd_sum n' = nd_sum n).
  { intros n1 fa f1 k1 df n2 r Hd. unfold define_func in Hd. destruct fa; [|destruct f1 as [g|]; [destruct (get_function_by_name g)|]]; now injection Hd as <- <-. }
  unfold update_node in E. set (na := match a with Some b => nd_set_active b n | None => n end) in E.
  assert (Aa : nd_arcs na = nd_arcs n /\ nd_value na = nd_value n /\ nd_sum na = nd_sum n) by (unfold na; now destruct a).
  clearbody na.
  assert (K : forall ne, nd_arcs ne = nd_arcs n /\ nd_value ne = nd_value n /\ nd_sum ne = nd_sum n -> forall n' x,
    match (match t with Some t => if is_valid_type t then Ok (nd_set_type t ne) else Err (EExc "Unknown node type") | None => Ok ne end) with
    | Err x => (ne, Err x)
    | Ok n =>
      match (match t, d with
            | Some t, Some d => if is_fuzzy_type t then ('(vals, memb, scaled) <- process_activation_dict d ;; Ok (nd_set_fuzzy (memb, vals) n, Some (scaled_args memb scaled)))%res else Ok (n, Some (raw_args d))
            | None, Some d => Ok (n, Some (raw_args d))
            | _, None => Ok (n, None) end) with
      | Err x => (n, Err x)
      | Ok (n, fargs) => define_func (nd_set_mem (match m with Some b => b | None => m_mem (set_prepared false s) end) n) fargs f k (m_func (set_prepared false s), m_gargs (set_prepared false s))
      end
    end = (n', Err x) -> nd_arcs n' = nd_arcs n /\ nd_value n' = nd_value n /\ nd_sum n' = nd_sum n).
  { clear - D. intros ne Hne n' x E. destruct t as [t|]; [destruct (is_valid_type t)|].
    - destruct d as [d|]; [destruct (is_fuzzy_type t); [destruct (process_activation_dict d) as [[[? ?] ?]|]|]|]; cbn [rbind] in E; try (apply D in E; now rewrite (proj1 E), (proj1 (proj2 E)), (proj2 (proj2 E))); now injection E as <- <-.
    - now injection E as <- <-.
    - destruct d as [d|]; apply D in E; now rewrite (proj1 E), (proj1 (proj2 E)), (proj2 (proj2 E)). }
  destruct e as [e|]; [destruct (get_excitation_by_name e)|].
  - apply (K (nd_set_exec e na) Aa n' x E).
  - injection E as <- <-. exact Aa.
  - apply (K na Aa n' x E).
Qed.

(** ** C83 *)
Theorem C83_effect : forall P c t a m e d f k (s s' : fcm F), total_preorder nleb P -> sortable P d ->
  add_concept c t a m e d f k s = (s', Ok tt) -> let dc := m_default s in
  exists n', dget (m_topo s') c = Some n' /\ (forall c', c' <> c -> dget (m_topo s') c' = dget (m_topo s) c') /\
    (In c (concepts s) -> concepts s' = concepts s) /\ (~ In c (concepts s) -> concepts s' = (concepts s ++ [c])%list) /\
    relations s' = relations s /\ settings s' = settings s /\ m_iters s' = m_iters s /\ m_prepared s' = false /\
    history s' c = Some [n0] /\ (forall c', c' <> c -> history s' c' = history s c') /\
    nd_arcs n' = [] /\ nd_value n' = n0 /\ nd_sum n' = n0 /\
    nd_active n' = Some (given a (dc_active dc)) /\
    (nd_exec n' = Some (given e (dc_exec dc)) /\ forall x, e = Some x -> x = "KOSKO" \/ x = "PAPAGEORGIUS") /\
    ((forall x, t = Some x -> is_valid_type x = true -> nd_type n' = Some x) /\
     ((forall x, t = Some x -> is_valid_type x = false) -> nd_type n' = Some (dc_type dc))) /\
    nd_mem n' = Some (given m (dc_mem dc)) /\
    exists fn ar own, nd_func n' = Some fn /\ nd_args n' = Some ar /\ nd_usemap n' = Some (negb own) /\
    exists old, (fuzzy_kind (nd_type n') -> nd_type n' = Some (dc_type dc) -> d = None -> old = dc_fuzzy dc) /\
      (~ (fuzzy_kind (nd_type n') /\ nd_type n' = Some (dc_type dc) /\ d = None) -> old = None) /\
      chosen (nd_type n') d f k (dc_func dc, dc_args dc) old fn ar own (nd_fuzzy n').
Proof.
  intros P c t a m e d f k s s' HP Hd H dc. unfold add_concept in H.
  destruct (build_node (m_default (set_prepared false s)) t a m e d f k) as [n' r] eqn:E. change (m_default (set_prepared false s)) with dc in E.
  destruct r as [[]|]; [|discriminate]. injection H as <-. exists n'.
  cbn [put_exec put_node set_topo set_exec m_topo set_prepared m_exec m_iters m_prepared]. split; [apply dget_dset_same|].
  split; [intros c' Hc; now apply dget_dset_other|]. unfold concepts, history. cbn [put_exec put_node set_topo set_exec m_topo set_prepared m_exec].
  split. { intros Hc. rewrite dkeys_dset. apply dmem_In in Hc. now rewrite Hc. }
  split. { intros Hc. rewrite dkeys_dset. apply dmem_false in Hc. now rewrite Hc. }
  do 4 (split; [reflexivity|]). split; [apply dget_dset_same|]. split; [intros c' Hc; now apply dget_dset_other|].
  unfold build_node in E.
  destruct (match e with Some e => match get_excitation_by_name e with Some _ => Ok e | None => Err (EExc (append "Unknown excitation function: " e)) end | None => Ok (dc_exec dc) end) as [e'|] eqn:E1; [|discriminate].
  assert (Ae : e' = given e (dc_exec dc) /\ forall x, e = Some x -> x = "KOSKO" \/ x = "PAPAGEORGIUS").
  { destruct e as [x|]; [|injection E1 as <-; split; [auto|discriminate]]. unfold get_excitation_by_name in E1.
    destruct (String.eqb_spec x "KOSKO"); [|destruct (String.eqb_spec x "PAPAGEORGIUS"); [|discriminate]]; injection E1 as <-; (split; [auto|]); intros y Hy; injection Hy as <-; auto. }
  destruct Ae as [Ae Ae']. clear E1.
  set (t' := match t with Some t => if is_valid_type t then t else dc_type dc | None => dc_type dc end) in E.
  assert (At : (forall x, t = Some x -> is_valid_type x = true -> Some t' = Some x) /\ ((forall x, t = Some x -> is_valid_type x = false) -> Some t' = Some (dc_type dc))).
  { unfold t'. split.
    - intros x -> ->. reflexivity.
    - intros Hx. destruct t as [x|]; auto. now rewrite (Hx x eq_refl). }
  clearbody t'. set (nb := nd_set_type t' (nd_set_exec e' (nd_set_active (match a with Some b => b | None => dc_active dc end) blank_node))) in E.
  match type of E with match ?M with _ => _ end = _ => destruct M as [[nf fargs]|] eqn:E3; [|discriminate] end.
  destruct (define_func (nd_set_mem (match m with Some b => b | None => dc_mem dc end) nf) fargs f k (dc_func dc, dc_args dc)) as [nd r] eqn:E4.
  destruct r as [[]|]; [|discriminate]. injection E as <-.
  apply define_ok in E4 as (C1 & C2 & C3 & C4 & C5 & C6 & C7 & C8 & C9 & fn & ar & own & D1 & D2 & D3 & D4). cbn in C1, C2, C3, C4, C5, C6, C7, C8, C9.
  assert (W : nd_arcs nf = nd_arcs nb /\ nd_sum nf = nd_sum nb /\ nd_active nf = nd_active nb /\ nd_exec nf = nd_exec nb /\ nd_type nf = nd_type nb /\
     ((is_fuzzy_type t' = true /\ exists y vals memb scaled, d = Some y /\ process_activation_dict y = Ok (vals, memb, scaled) /\ nd_fuzzy nf = Some (memb, vals) /\ fargs = Some (scaled_args memb scaled)) \/
      (is_fuzzy_type t' = true /\ d = None /\ dc_type dc = t' /\ nd_fuzzy nf = dc_fuzzy dc /\ fargs = None) \/
      (is_fuzzy_type t' = true /\ d = None /\ dc_type dc <> t' /\ nd_fuzzy nf = None /\ fargs = None) \/
      (is_fuzzy_type t' = false /\ nd_fuzzy nf = None /\ fargs = match d with Some y => Some (raw_args y) | None => None end))).
  { destruct (is_fuzzy_type t').
    - destruct d as [y|].
      + destruct (process_activation_dict y) as [[[vals memb] scaled]|] eqn:Ep; [|discriminate]. injection E3 as <- <-. do 5 (split; [reflexivity|]). left. split; auto. exists y, vals, memb, scaled. auto.
      + destruct (String.eqb_spec (dc_type dc) t') as [Et|Et].
        * destruct (dc_fuzzy dc) as [fz|]; [|discriminate]. injection E3 as <- <-. do 5 (split; [reflexivity|]). right. left. auto.
        * injection E3 as <- <-. do 5 (split; [reflexivity|]). do 2 right. left. auto.
    - injection E3 as <- <-. do 5 (split; [reflexivity|]). do 3 right. auto. }
  destruct W as (W1 & W3 & W4 & W5 & W6 & W). unfold nd_set_value. cbn [nd_arcs nd_value nd_sum nd_active nd_exec nd_type nd_mem nd_func nd_args nd_usemap nd_fuzzy].
  rewrite C1, C4, C5, C6, C7, C8, C9, W1, W3, W4, W5, W6. cbn.
  split; [reflexivity|]. split; [reflexivity|]. split; [reflexivity|]. split; [now destruct a|]. split; [split; [now f_equal|exact Ae']|]. split; [exact At|]. split; [now destruct m|].
  exists fn, ar, own. do 3 (split; [assumption|]). destruct W as [(W7 & y & vals & memb & scaled & -> & W8 & W9 & ->)|[(W7 & -> & W8 & W9 & ->)|[(W7 & -> & W8 & W9 & ->)|(W7 & W8 & ->)]]].
  - exists None. split; [discriminate|]. split; [auto|]. destruct D4 as (D4 & D5 & D6). split; auto. split; auto. left. split; [now apply fuzzy_kind_b|].
    destruct (Hd y eq_refl) as [V1 V2]. destruct (processed P y vals memb scaled HP V1 V2 W8). exists vals, memb, scaled. repeat (split; auto).
  - exists (dc_fuzzy dc). split; auto. split; [|now split]. intros Hc. exfalso. apply Hc. split; [now apply fuzzy_kind_b|]. split; congruence.
  - exists None. split; [intros; congruence|]. split; auto. now split.
  - exists None. split; [intros Hk; apply fuzzy_kind_b in Hk; congruence|]. split; auto. unfold chosen. destruct d as [y|].
    + destruct D4 as (D4 & D5 & D6). split; auto. split; auto. right. split; [intros Hk; apply fuzzy_kind_b in Hk; congruence|]. split; auto. subst ar. unfold raw_args. destruct (ad_arr y); eauto.
    + now split.
Qed.
(** sufficient for success *)
Theorem C83_succeeds : forall P c t a m e d f k (s : fcm F), total_preorder nleb P -> sortable P d ->
  (forall x, e = Some x -> x = "KOSKO" \/ x = "PAPAGEORGIUS") ->
  (forall x, f = Some x -> d <> None \/ get_function_by_name x <> None) ->
  (forall x, d = Some x -> ad_vals x <> []) ->
  (d = None -> fuzzy_kind (Some (dc_type (m_default s))) -> dc_fuzzy (m_default s) <> None) ->
  exists s', add_concept c t a m e d f k s = (s', Ok tt).
Proof.
  intros P c t a m e d f k s HP Hd He Hf Hv Hz. unfold add_concept. cbn [set_prepared m_default]. set (dc := m_default s) in *.
  destruct (build_node dc t a m e d f k) as [n r] eqn:E. destruct r as [[]|er]; [eauto|]. exfalso. unfold build_node in E.
  assert (Ee : exists e', (match e with Some e => match get_excitation_by_name e with Some _ => Ok e | None => Err (EExc (append "Unknown excitation function: " e)) end | None => Ok (dc_exec dc) end) = Ok e').
  { destruct e as [x|]; [|eauto]. destruct (He x eq_refl) as [->| ->]; cbn; eauto. }
  destruct Ee as [e' Ee]. rewrite Ee in E. clear Ee.
  set (t' := match t with Some t => if is_valid_type t then t else dc_type dc | None => dc_type dc end) in E. clearbody t'.
  match type of E with match ?M with _ => _ end = _ => destruct M as [[nf fargs]|] eqn:E3 end.
  - assert (Ef : fargs = None <-> d = None).
    { destruct (is_fuzzy_type t').
      - destruct d as [y|].
        + destruct (process_activation_dict y) as [[[vals memb] scaled]|]; [|discriminate]. injection E3 as <- <-. split; discriminate.
        + destruct (String.eqb (dc_type dc) t'); [destruct (dc_fuzzy dc); [|discriminate]|]; now injection E3 as <- <-.
      - injection E3 as <- <-. destruct d; split; easy. }
    unfold define_func in E. destruct fargs as [fa|]; [discriminate|]. destruct f as [g|]; [|discriminate].
    destruct (Hf g eq_refl) as [Hx|Hx]; [now apply Hx, Ef|]. destruct (get_function_by_name g); [discriminate|congruence].
  - destruct (is_fuzzy_type t') eqn:Et; [|discriminate]. destruct d as [y|].
    + destruct (Hd y eq_refl) as [V1 V2]. specialize (Hv y eq_refl). unfold process_activation_dict in E3.
      destruct (dual_quick_sort_spec nleb P HP (ad_vals y) (ad_memb y) 0 (Z.of_nat (length (ad_vals y)) - 1)) as (av & mv & Es & HR & HS); try lia; auto.
      rewrite Es in E3. cbn [rbind] in E3. pose proof (proj1 HR) as L1. unfold lget in E3.
      assert (0 < length av) by (rewrite L1; destruct (ad_vals y); [congruence|cbn; lia]).
      destruct (nth_error av 0) eqn:E0; [|apply nth_error_None in E0; lia]. cbn [rbind] in E3.
      destruct (nth_error av (length av - 1)) eqn:E1; [|apply nth_error_None in E1; lia]. discriminate.
    + destruct (String.eqb_spec (dc_type dc) t') as [Eq|Eq]; [|discriminate]. subst t'. apply fuzzy_kind_b in Et.
      specialize (Hz eq_refl Et). destruct (dc_fuzzy dc); [discriminate|congruence].
Qed.

(** ** C84 *)
(** everything but the default concept *)
Definition rest (s : fcm F) := (m_topo s, m_arcs s, m_exec s, (m_stab s, m_maxit s, m_extra s, m_sdiff s, m_decision s, m_mem s, m_func s, m_gargs s, m_iters s,
  m_weight s, m_debug s, m_fit s), (m_prepared s, m_cache s, m_oob s)).
Theorem C84_effect : forall P t a m e d f k (s s' : fcm F), total_preorder nleb P -> sortable P d ->
  set_default_concept_properties t a m e d f k s = (s', Ok tt) ->
  let dc := m_default s in let dc' := m_default s' in
  rest s' = rest s /\ dc_active dc' = given a (dc_active dc) /\ (dc_exec dc' = e /\ (e = "KOSKO" \/ e = "PAPAGEORGIUS")) /\
  (dc_type dc' = t /\ is_valid_type t = true) /\ dc_mem dc' = given m (m_mem s) /\
  exists own, chosen (Some t) d f k (m_func s, m_gargs s) (dc_fuzzy dc) (dc_func dc') (dc_args dc') own (dc_fuzzy dc').
Proof.
  intros P t a m e d f k s s' HP Hd H dc dc'. unfold dc' in *. clear dc'. unfold set_default_concept_properties in H.
  destruct (update_default s (m_default s) t a m e d f k) as [d' r] eqn:E. injection H as <- ->. fold dc in E. cbn [set_default m_default].
  split; [reflexivity|]. unfold update_default in E. set (da := match a with Some b => dc_set_active b dc | None => dc end) in E.
  assert (Aa : dc_active da = given a (dc_active dc) /\ dc_fuzzy da = dc_fuzzy dc) by (unfold da; now destruct a). clearbody da. destruct Aa as [Aa Af].
  assert (He : e = "KOSKO" \/ e = "PAPAGEORGIUS").
  { unfold get_excitation_by_name in E. destruct (String.eqb_spec e "KOSKO"); auto. destruct (String.eqb_spec e "PAPAGEORGIUS"); auto. discriminate. }
  destruct (get_excitation_by_name e); [|discriminate]. destruct (is_valid_type t) eqn:V; [|discriminate].
  match type of E with match ?M with _ => _ end = _ => destruct M as [[df fargs]|] eqn:E3; [|discriminate] end.
  assert (W : dc_active df = dc_active da /\ dc_exec df = e /\ dc_type df = t /\
     ((fuzzy_kind (Some t) /\ exists y vals memb scaled, d = Some y /\ process_activation_dict y = Ok (vals, memb, scaled) /\ dc_fuzzy df = Some (memb, vals) /\ fargs = Some (scaled_args memb scaled)) \/
      ((fuzzy_kind (Some t) -> d = None) /\ dc_fuzzy df = dc_fuzzy da /\ fargs = match d with Some y => Some (raw_args y) | None => None end))).
  { match type of E3 with (if ?B then _ else _) = _ => destruct B eqn:Eb end.
    - destruct d as [y|]; [|discriminate]. destruct (process_activation_dict y) as [[[vals memb] scaled]|] eqn:Ep; [|discriminate]. injection E3 as <- <-.
      do 3 (split; [reflexivity|]). left. split; [|exists y, vals, memb, scaled; auto]. apply fuzzy_kind_b. unfold is_fuzzy_type. rewrite andb_true_r in Eb. exact Eb.
    - injection E3 as <- <-. do 3 (split; [reflexivity|]). right. split; [|split; reflexivity].
      intros Hk. apply fuzzy_kind_b in Hk. unfold is_fuzzy_type in Hk. destruct d as [y|]; auto. rewrite andb_true_r in Eb. congruence. }
  destruct W as (W1 & W2 & W3 & W). clear E3. set (dm := dc_set_usemap false (dc_set_mem (match m with Some b => b | None => m_mem s end) df)) in E.
  assert (Q : exists own, dc_active d' = dc_active dm /\ dc_exec d' = dc_exec dm /\ dc_type d' = dc_type dm /\ dc_mem d' = dc_mem dm /\ dc_fuzzy d' = dc_fuzzy dm /\
     match fargs with Some x => dc_func d' = "fuzzy" /\ dc_args d' = x /\ own = true
     | None => match f with Some g => dc_func d' = g /\ dc_args d' = k /\ own = true /\ get_function_by_name g <> None
               | None => dc_func d' = m_func s /\ dc_args d' = m_gargs s /\ own = false end end).
  { destruct fargs as [x|]; [exists true; now injection E as <-|]. destruct f as [g|].
    - exists true. destruct (get_function_by_name g); [|discriminate]. injection E as <-. repeat (split; [reflexivity|]). discriminate.
    - exists false. now injection E as <-. }
  destruct Q as (own & Q1 & Q2 & Q3 & Q4 & Q5 & Q6). unfold dm in Q1, Q2, Q3, Q4, Q5. cbn in Q1, Q2, Q3, Q4, Q5.
  split; [congruence|]. split; [split; [congruence|exact He]|]. split; [split; [congruence|reflexivity]|]. split; [rewrite Q4; now destruct m|]. exists own.
  unfold chosen. destruct W as [(W4 & y & vals & memb & scaled & -> & W5 & W6 & ->)|(W4 & W5 & ->)].
  - destruct Q6 as (Q6 & Q7 & Q8). split; auto. split; auto. left. split; auto. destruct (Hd y eq_refl) as [V1 V2].
    destruct (processed P y vals memb scaled HP V1 V2 W5). exists vals, memb, scaled. repeat (split; auto). congruence.
  - destruct d as [y|].
    + destruct Q6 as (Q6 & Q7 & Q8). split; auto. split; auto. right. split; [intros Hk; discriminate (W4 Hk)|]. split; [congruence|]. rewrite Q7. unfold raw_args. destruct (ad_arr y); eauto.
    + split; [congruence|]. exact Q6.
Qed.
(** a concept added afterwards without arguments has these properties, except
    that it always follows the map's function *)
Theorem C84_later_concepts : forall P t a m e d f k c (s s1 : fcm F), total_preorder nleb P -> sortable P d ->
  set_default_concept_properties t a m e d f k s = (s1, Ok tt) -> (fuzzy_kind (Some t) -> d <> None) ->
  exists s2 n, add_concept c None None None None None None [] s1 = (s2, Ok tt) /\ dget (m_topo s2) c = Some n /\
    nd_active n = Some (given a (dc_active (m_default s))) /\ nd_exec n = Some e /\ nd_type n = Some t /\ nd_mem n = Some (given m (m_mem s)) /\
    nd_usemap n = Some true /\
    exists fn ar own old, nd_func n = Some fn /\ nd_args n = Some ar /\ chosen (Some t) d f k (m_func s, m_gargs s) old fn ar own (nd_fuzzy n).
Proof.
  intros P t a m e d f k c s s1 HP Hd H Hz. destruct (C84_effect P t a m e d f k s s1 HP Hd H) as (_ & A1 & (A2 & _) & (A3 & _) & A4 & own & A5).
  destruct (C83_succeeds P c None None None None None None [] s1 HP) as [s2 H2]; try discriminate.
  { intros _ Hk. rewrite A3 in Hk. specialize (Hz Hk). destruct d as [y|]; [|congruence]. destruct A5 as (_ & _ & [(_ & vals & memb & scaled & _ & _ & _ & ->)|[Q _]]); [discriminate|tauto]. }
  assert (HN : sortable P None) by (intros y; discriminate).
  destruct (C83_effect P c None None None None None None [] s1 s2 HP HN H2) as (n & B1 & _ & _ & _ & _ & _ & _ & _ & _ & _ & _ & _ & _ & B2 & (B3 & _) & (_ & B4) & B5 & fn & ar & own' & B6 & B7 & B8 & old & B9 & B10 & B11).
  cbn [given updated] in B2, B3, B5. assert (Bt : nd_type n = Some t) by (rewrite B4, A3; [reflexivity|discriminate]).
  exists s2, n. cbn in B11. destruct B11 as (B11 & B12 & B13 & B14).
  subst own'. do 6 (split; [congruence|]). split; [exact B8|].
  destruct d as [y|].
  - exists fn, ar, own. destruct A5 as (A5 & A6 & [(Ak & vals & memb & scaled & A7 & A8 & A9 & A10)|(Ak & A7 & wr & A8 & A9)]).
    + exists None. split; auto. split; auto. split; [congruence|]. split; auto. left. split; auto. exists vals, memb, scaled. split; auto. split; auto. split; [congruence|].
      rewrite B11, B9; auto; congruence.
    + exists (nd_fuzzy n). split; auto. split; auto. split; [congruence|]. split; auto. right. split; auto. split; auto. exists wr. split; auto. congruence.
  - exists fn, ar, own, (nd_fuzzy n). split; auto. split; auto. split; auto. destruct A5 as (_ & A5). destruct f as [g|]; intuition congruence.
Qed.
End Concept.
Print Assumptions C82_effect.
Print Assumptions C82_failure.
Print Assumptions C83_effect.
Print Assumptions C83_succeeds.
Print Assumptions C84_effect.
Print Assumptions C84_later_concepts.

(** ** Examples and refutations *)
Lemma Q_preorder : total_preorder (nleb : Q -> Q -> bool) (fun _ => True).
Proof.
  split.
  - intros x y _ _. cbn. rewrite !Qle_bool_iff. destruct (Qlt_le_dec x y) as [H|H]; [left; now apply Qlt_le_weak|now right].
  - intros x y z _ _ _. cbn. rewrite !Qle_bool_iff. apply Qle_trans.
Qed.
Definition cmap : fcm Q := Eval vm_compute in
  run_ops [OpAddConcept "a" None None (Some false) None None (Some "relm") []; OpAddConcept "b" None None None None None None [];
           OpAddRelation "a" "b" (1#2)%Q; OpInitConcept "a" 1%Q false] (qmap 10 5 true "LAST" "saturation").
Definition pts : adict Q := mkAdict false [1; 0; 1#2]%Q [3; 1; 2]%Q.
Example C82_nonvacuous : exists s' n',
  set_concept_properties "a" (Some TYPE_FUZZY) (Some false) (Some false) (Some "PAPAGEORGIUS") (Some pts) None [] cmap = (s', Ok tt) /\
  sortable (fun _ => True) (Some pts) /\ dget (m_topo s') "a" = Some n' /\
  nd_fuzzy n' = Some ([0; 1#2; 1], [1; 2; 3])%Q /\ nd_value n' = 1%Q /\ nd_exec n' = Some "PAPAGEORGIUS" /\ nd_func n' = Some "fuzzy" /\
  option_map (fun a => dget a "val_list") (nd_args n') = Some (Some (AVec [1#2; 3#4; 1]%Q)).
Proof.
  eexists _, _. split; [vm_compute; reflexivity|]. split; [intros x Hx; injection Hx as <-; split; [apply Forall_forall; auto|reflexivity]|].
  split; [vm_compute; reflexivity|]. vm_compute. repeat split.
Qed.
(** Properties that are not given should stay as they are.  Memory and function
    are reset to those of the map. *)
Theorem C82_not_given_kept_refuted : exists (s s' : fcm Q) n n',
  set_concept_properties "a" None (Some true) None None None None [] s = (s', Ok tt) /\ dget (m_topo s) "a" = Some n /\ dget (m_topo s') "a" = Some n' /\
  nd_mem n = Some false /\ nd_mem n' = Some true /\ nd_func n = Some "relm" /\ nd_func n' = Some "saturation".
Proof. exists cmap. eexists _, _, _. split; [vm_compute; reflexivity|]. split; [vm_compute; reflexivity|]. split; [vm_compute; reflexivity|]. vm_compute. repeat split. Qed.
Print Assumptions C82_not_given_kept_refuted.
(** A call that raises should change nothing. *)
Theorem C82_failure_changes_nothing_refuted : exists (s s' : fcm Q) x n n',
  set_concept_properties "a" (Some "no type") (Some false) None None None None [] s = (s', Err x) /\ dget (m_topo s) "a" = Some n /\ dget (m_topo s') "a" = Some n' /\
  nd_active n = Some true /\ nd_active n' = Some false.
Proof. exists cmap. eexists _, _, _, _. split; [vm_compute; reflexivity|]. split; [vm_compute; reflexivity|]. split; [vm_compute; reflexivity|]. vm_compute. repeat split. Qed.
Print Assumptions C82_failure_changes_nothing_refuted.

Example C83_nonvacuous : exists s' n',
  add_concept "c" (Some TYPE_REGRESOR) (Some false) None None (Some pts) None [] cmap = (s', Ok tt) /\ dget (m_topo s') "c" = Some n' /\
  nd_active n' = Some false /\ nd_mem n' = Some true /\ nd_exec n' = Some "KOSKO" /\ nd_fuzzy n' = Some ([0; 1#2; 1], [1; 2; 3])%Q /\
  concepts s' = ["a"; "b"; "c"].
Proof. eexists _, _. split; [vm_compute; reflexivity|]. split; [vm_compute; reflexivity|]. vm_compute. repeat split. Qed.
(** An unknown type should be refused, as set_concept_properties does. *)
Theorem C83_unknown_type_refuted : exists (s s' : fcm Q) n,
  add_concept "c" (Some "no type") None None None None None [] s = (s', Ok tt) /\ dget (m_topo s') "c" = Some n /\ nd_type n = Some TYPE_SIMPLE.
Proof. exists cmap. eexists _, _. split; [vm_compute; reflexivity|]. split; vm_compute; reflexivity. Qed.
Print Assumptions C83_unknown_type_refuted.

Example C84_nonvacuous : exists s1 s2 n,
  set_default_concept_properties TYPE_DECISION (Some false) (Some false) "PAPAGEORGIUS" None (Some "relm") [] cmap = (s1, Ok tt) /\
  add_concept "c" None None None None None None [] s1 = (s2, Ok tt) /\ dget (m_topo s2) "c" = Some n /\
  nd_active n = Some false /\ nd_mem n = Some false /\ nd_exec n = Some "PAPAGEORGIUS" /\ nd_type n = Some TYPE_DECISION /\ nd_func n = Some "relm".
Proof. eexists _, _, _. split; [vm_compute; reflexivity|]. split; [vm_compute; reflexivity|]. split; [vm_compute; reflexivity|]. vm_compute. repeat split. Qed.
(** Accepted defaults should be usable: after choosing the regression type
    without a description, add_concept raises KeyError. *)
Theorem C84_usable_refuted : exists (s s1 : fcm Q), set_default_concept_properties TYPE_REGRESOR (Some true) None "KOSKO" None None [] s = (s1, Ok tt) /\
  forall c, exists s2, add_concept c None None None None None None [] s1 = (s2, Err (EKey "activation relation for continuous values")).
Proof. exists cmap. eexists. split; [vm_compute; reflexivity|]. intros c. eexists. reflexivity. Qed.
Print Assumptions C84_usable_refuted.
(** A default function should survive changes of the map's function, as a
    function given to add_concept does. *)
Theorem C84_own_function_refuted : exists (s : fcm Q),
  let s1 := run_ops [OpSetDefault TYPE_SIMPLE (Some true) None "KOSKO" None (Some "relm") [];
                     OpAddConcept "c" None None None None None None []; OpAddConcept "d" None None None None None (Some "relm") []] s in
  let s2 := fst (step (OpSetActivation "biestate" []) s1) in
  forall c, In c ["c"; "d"] -> exists n1 n2, dget (m_topo s1) c = Some n1 /\ dget (m_topo s2) c = Some n2 /\ nd_func n1 = Some "relm" /\
    nd_func n2 = Some (if String.eqb c "c" then "biestate" else "relm").
Proof. exists cmap. intros s1 s2 c [<-|[<-|[]]]; eexists _, _; (split; [vm_compute; reflexivity|]); (split; [vm_compute; reflexivity|]); vm_compute; split; reflexivity. Qed.
Print Assumptions C84_own_function_refuted.
