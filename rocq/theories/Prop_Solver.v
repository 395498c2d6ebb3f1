(** C86: options of solvers. *)
From Coq Require Import QArith Lia.
From Verif Require Import PyBase ParamModel SolverModel SolverSpec.
Close Scope Q_scope.
Local Open Scope string_scope.
Local Open Scope list_scope.

Definition lookup (t : option_table) (n : string) : option (kind * option pv) :=
  match find (fun o => String.eqb n (fst o)) t with Some (_, x) => Some x | None => None end.
(** An entry of the dictionary does what the table says, with the current value [cur]. *)
Definition entry_ok (n : string) (m : meta) (k : kind) (cur : option pv) : Prop :=
  m_val m = cur /\ m_set m = (match cur with Some _ => true | None => false end) /\
  forall v, assert_valid n m v = match rejection k v with Some x => Err x | None => Ok tt end.
Definition state_ok (t : option_table) (cur : string -> option pv -> option pv) (st : params) : Prop :=
  p_read_only st = false /\
  forall n, match lookup t n with
            | None => dget (p_dict st) n = None
            | Some (k, d) => exists m, dget (p_dict st) n = Some m /\ entry_ok n m k (cur n d)
            end.

Lemma in_strings v l : pin v (map PStr l) = match v with PStr s => existsb (String.eqb s) l | _ => false end.
Proof.
  unfold pin. induction l as [|s l IH]; [destruct v; reflexivity|]. cbn [map existsb]. rewrite IH. destruct v; reflexivity.
Qed.
Lemma bool_values v : pin v [PBool true; PBool false] = match num v with Some x => Qeq_bool x 0 || Qeq_bool x 1 | None => false end.
Proof.
  unfold pin. cbn [existsb]. rewrite Bool.orb_false_r, Bool.orb_comm. unfold peq. destruct v; reflexivity.
Qed.
Lemma valid_anything n m v : m_values m = None -> m_types m = TsNone -> m_upper m = None -> m_lower m = None -> m_check m = None -> assert_valid n m v = Ok tt.
Proof. intros A B C D E. unfold assert_valid, check_values_types, check_upper, check_lower, check_user. rewrite A, B, C, D, E. destruct (negb _); reflexivity. Qed.
Ltac start := intros A B C D E F; unfold assert_valid, check_values_types, check_upper, check_lower, check_user; rewrite A, ?B, ?C, D, E, F; rewrite Bool.andb_false_r; cbn [negb].
Lemma valid_bool n m v : m_values m = Some [PBool true; PBool false] -> m_upper m = None -> m_lower m = None -> m_check m = None -> m_allow_none m = false -> True ->
  assert_valid n m v = match rejection TrueOrFalse v with Some x => Err x | None => Ok tt end.
Proof.
  intros A B C D E _. unfold assert_valid, check_values_types, check_upper, check_lower, check_user. rewrite A, B, C, D, E, Bool.andb_false_r. cbn [negb]. rewrite bool_values.
  unfold rejection. destruct (num v) as [x|]; [|reflexivity]. destruct (Qeq_bool x 0 || Qeq_bool x 1); reflexivity.
Qed.
Lemma valid_int n m v : m_values m = None -> m_types m = TsType TyInt -> m_upper m = None -> m_lower m = None -> m_check m = None -> m_allow_none m = false ->
  assert_valid n m v = match rejection Integer v with Some x => Err x | None => Ok tt end.
Proof. start. destruct v; reflexivity. Qed.
Lemma valid_choice n m v l : m_values m = Some (map PStr l) -> m_upper m = None -> m_lower m = None -> m_check m = None -> m_allow_none m = false ->
  assert_valid n m v = match rejection (OneOf l) v with Some x => Err x | None => Ok tt end.
Proof.
  intros A B C D E. unfold assert_valid, check_values_types, check_upper, check_lower, check_user. rewrite A, B, C, D, E, Bool.andb_false_r. cbn [negb]. rewrite in_strings.
  destruct v as [| | | | |s|]; try reflexivity. cbn [rejection]. destruct (existsb (String.eqb s) l); reflexivity.
Qed.
Lemma valid_between n m v lo up : m_values m = None -> m_types m = TsNone -> m_upper m = option_map PFloat up -> m_lower m = Some (PFloat lo) -> m_check m = None -> m_allow_none m = false ->
  assert_valid n m v = match rejection (Between lo up) v with Some x => Err x | None => Ok tt end.
Proof.
  start. unfold plt, rejection. cbn [num]. destruct up as [u|]; cbn [option_map num].
  - destruct (num v) as [x|] eqn:Ev; [|destruct v; try discriminate; reflexivity]. cbn [bind].
    destruct (Qle_bool lo x), (Qle_bool x u); reflexivity.
  - destruct (num v) as [x|] eqn:Ev; [|destruct v; try discriminate; reflexivity]. cbn [bind]. destruct (Qle_bool lo x); reflexivity.
Qed.

Lemma lookup_in t n x : lookup t n = Some x -> In (n, x) t.
Proof. unfold lookup. destruct (find _ t) as [[m y]|] eqn:F; [|discriminate]. intros H. injection H as ->. apply find_some in F as [F E]. cbn in E. apply String.eqb_eq in E. now subst m. Qed.
Lemma lookup_none t n : lookup t n = None -> ~ In n (map fst t).
Proof.
  unfold lookup. destruct (find _ t) as [[m y]|] eqn:F; [discriminate|]. intros _ K. apply in_map_iff in K as ([m x] & <- & K).
  apply (find_none _ _ F) in K. cbn in K. rewrite String.eqb_refl in K. discriminate.
Qed.
Lemma state_from_table t st : p_read_only st = false -> incl (dkeys (p_dict st)) (map fst t) ->
  Forall (fun o => exists m, dget (p_dict st) (fst o) = Some m /\ entry_ok (fst o) m (fst (snd o)) (snd (snd o))) t -> state_ok t (fun _ d => d) st.
Proof.
  intros R I F. split; [exact R|]. intros n. destruct (lookup t n) as [[k d]|] eqn:L.
  - apply lookup_in in L. rewrite Forall_forall in F. exact (F _ L).
  - apply lookup_none in L. apply dget_None. intros K. apply L, I, K.
Qed.
Ltac entry := eexists; split; [reflexivity|]; split; [reflexivity|]; split; [reflexivity|]; intros v;
  first [apply valid_anything; reflexivity | apply valid_bool; (reflexivity || exact I) | apply valid_int; reflexivity | apply valid_choice; reflexivity | apply valid_between; reflexivity].
(** The object before the keyword arguments are processed. *)
Lemma declared_ok c : exists st, perform (p_init false) (solver_base ++ declare_options c) = Ok st /\ state_ok (options c) (fun _ d => d) st.
Proof.
  destruct c; eexists; (split; [vm_compute; reflexivity|]); apply state_from_table; [reflexivity| |unfold options; cbn [app]|..].
  all: try reflexivity.
  all: try (intros n Hn; cbn in Hn |- *; tauto).
  all: repeat (apply Forall_cons; [cbn [fst snd]; entry|]); try constructor.
Qed.

(** Keyword arguments. *)
Lemma perform_app h1 h2 st : perform st (h1 ++ h2) = match perform st h1 with Ok st' => perform st' h2 | Err x => Err x end.
Proof. revert st. induction h1 as [|c r IH]; intros st; [reflexivity|]. cbn [app perform]. destruct (exec st c) as [st' [x|]]; [reflexivity|apply IH]. Qed.
Lemma state_ok_ext t f g st : (forall n d, f n d = g n d) -> state_ok t f st -> state_ok t g st.
Proof.
  intros E [R H]. split; [exact R|]. intros n. specialize (H n). destruct (lookup t n) as [[k d]|]; [|exact H]. rewrite <- E. exact H.
Qed.
Lemma update_ok t kw : forall cur st, state_ok t cur st ->
  match first_rejection t kw with
  | Some x => snd (update st kw) = Some x
  | None => exists st', update st kw = (st', None) /\ state_ok t (fun n d => match given kw n with Some v => Some v | None => cur n d end) st'
  end.
Proof.
  induction kw as [|[n v] kw IH]; intros cur st S.
  - cbn. exists st. split; [reflexivity|exact S].
  - cbn [first_rejection update]. pose proof (proj2 S n) as Hn. unfold lookup in Hn.
    destruct (find (fun o => String.eqb n (fst o)) t) as [[n' [k d]]|] eqn:F.
    + destruct Hn as (m & Hm & Hv & Hs & Ha). unfold setitem. rewrite Hm, (proj1 S), (Ha v). destruct (rejection k v) as [x|]; [reflexivity|].
      set (m' := {| m_val := Some v; m_values := m_values m; m_types := m_types m; m_upper := m_upper m; m_lower := m_lower m; m_check := m_check m; m_set := true; m_allow_none := m_allow_none m; m_recordable := m_recordable m |}).
      set (st1 := set_dict st (dset (p_dict st) n m')).
      assert (S1 : state_ok t (fun a b => if String.eqb a n then Some v else cur a b) st1).
      { split; [exact (proj1 S)|]. intros a. pose proof (proj2 S a) as H. unfold st1; cbn [set_dict p_dict].
        destruct (String.eqb a n) eqn:E.
        - apply String.eqb_eq in E. subst a. unfold lookup. rewrite F. exists m'. split; [apply dget_dset_same|]. split; [reflexivity|]. split; [reflexivity|]. exact Ha.
        - apply String.eqb_neq in E. rewrite (dget_dset_other _ _ E). exact H. }
      specialize (IH _ _ S1). cbn [given]. destruct (first_rejection t kw) as [x|]; [exact IH|]. destruct IH as (st' & U & S'). exists st'. split; [exact U|].
      eapply state_ok_ext; [|exact S']. intros a b. cbn. destruct (given kw a); [reflexivity|]. destruct (String.eqb a n); reflexivity.
    + unfold setitem. rewrite Hn. reflexivity.
Qed.

(** C86: the options a solver has, which values they accept, and what is read from the object created
    with keyword arguments.  Of the documented table ([options]), nothing more and nothing less is accepted. *)
Theorem C86_solver_options : forall c kwargs,
  match first_rejection (options c) kwargs with
  | Some x => construct c kwargs = Err x
  | None => exists st, construct c kwargs = Ok st /\
      (forall n, contains st n = true <-> In n (map fst (options c))) /\
      (forall n k default, In (n, (k, default)) (options c) ->
         getitem st n = match given kwargs n with
                        | Some v => Ok v
                        | None => match default with Some v => Ok v | None => Err RuntimeError end
                        end) /\
      (forall n, ~ In n (map fst (options c)) -> getitem st n = Err KeyError)
  end.
Proof.
  intros c kw. unfold construct. rewrite app_assoc, perform_app. destruct (declared_ok c) as (st & P & S). rewrite P.
  pose proof (update_ok (options c) kw _ _ S) as U. cbn [perform exec].
  destruct (first_rejection (options c) kw) as [x|].
  - destruct (update st kw) as [st' [y|]]; cbn in U; [now injection U as ->|discriminate].
  - destruct U as (st' & -> & S'). exists st'. split; [reflexivity|].
    assert (N : NoDup (map fst (options c))) by (destruct c; cbn; repeat (constructor; [cbn; intuition discriminate|]); constructor).
    assert (L : forall n k d, In (n, (k, d)) (options c) -> lookup (options c) n = Some (k, d)).
    { clear - N. intros n k d. unfold lookup. induction (options c) as [|[a [k' d']] t IH]; [intros []|]. inversion N as [|? ? N1 N2]; subst. cbn [find fst]. intros [E|E].
      - injection E as -> -> ->. rewrite String.eqb_refl. reflexivity.
      - destruct (String.eqb n a) eqn:Q; [|now apply IH]. apply String.eqb_eq in Q. subst. exfalso. apply N1. apply in_map_iff. eexists. split; [|exact E]. reflexivity. }
    split; [|split].
    + intros n. unfold contains. rewrite dmem_spec. pose proof (proj2 S' n) as H. destruct (lookup (options c) n) as [[k d]|] eqn:E.
      * destruct H as (m & Hm & _). split; intros _; [|eapply dget_Some_key; exact Hm]. apply lookup_in in E. apply in_map_iff. eexists. split; [|exact E]. reflexivity.
      * split; intros K; [|exfalso; exact (lookup_none _ _ E K)]. exfalso. apply dget_None in H. auto.
    + intros n k d K. apply L in K. pose proof (proj2 S' n) as H. rewrite K in H. destruct H as (m & Hm & Hv & Hs & _). unfold getitem. rewrite Hm, Hs, Hv.
      destruct (given kw n); [reflexivity|]. destruct d; reflexivity.
    + intros n K. pose proof (proj2 S' n) as H. destruct (lookup (options c) n) as [[k d]|] eqn:E.
      * exfalso. apply K. apply lookup_in in E. apply in_map_iff. eexists. split; [|exact E]. reflexivity.
      * unfold getitem. rewrite H. reflexivity.
Qed.
Print Assumptions C86_solver_options.

Example C86_example :
  first_rejection (options NewtonSolver) [("solve_subsystems", PBool false); ("maxiter", PInt 40)] = None /\
  (exists st, construct NewtonSolver [("solve_subsystems", PBool false); ("maxiter", PInt 40)] = Ok st /\
     getitem st "maxiter" = Ok (PInt 40) /\ getitem st "atol" = Ok (PFloat (1 # 10000000000)) /\ getitem st "tol" = Err KeyError) /\
  (exists st, construct NewtonSolver [] = Ok st /\ getitem st "solve_subsystems" = Err RuntimeError) /\
  construct NonlinearRunOnce [("maxiter", PInt 3)] = Err KeyError /\
  construct NonlinearRunOnce [("stall_limit", PInt 3)] = Err KeyError /\
  construct NewtonSolver [("maxiter", PFloat 3)] = Err TypeError /\
  construct ArmijoGoldsteinLS [("c", PFloat (3 # 2))] = Err ValueError /\
  construct ScipyKrylov [("solver", PStr "cg")] = Err ValueError.
Proof.
  split; [vm_compute; reflexivity|]. split; [eexists; split; [vm_compute; reflexivity|]; repeat split; vm_compute; reflexivity|].
  split; [eexists; split; vm_compute; reflexivity|]. repeat split; vm_compute; reflexivity.
Qed.
