(** Property theorem C112: a model object used in several places. *)
From Verif Require Import PyBase NamesModel PromotionsModel PromotionsSpec HierModel HierSpec Digraph TopoModel FlatModel ExprModel UnflatModel UnflatSpec
  FlattenModel FlattenSpec CompileModel CompileSpec WorldModel WorldSpec WorldSpec2 Prop_World IterModel IterSpec Prop_Iter DependSpec Prop_Extend Prop_Sub WorldCheck ShareProofs.
Local Open Scope string_scope.
Local Open Scope list_scope.

(** C112, hierarchies: where the same submodel occurs in compiled hierarchies, and the values of its
    inputs and of the variables it leaves to be supplied are the same in both places, all its
    variables have the same values in both places. *)
Theorem c112_hierarchy : forall V it1 it2 it h shp dflt1 dflt2 dflt um1 m1 c1 p1 um2 m2 c2 p2 sum sm c (apply : nat -> list V -> nat -> V) init1 init2,
  lawful it1 -> lawful it2 -> lawful it -> well_formed h um1 m1 shp -> well_formed h um2 m2 shp -> inputs_not_targets h um1 m1 -> inputs_not_targets h um2 m2 ->
  compile_in it1 h shp dflt1 um1 m1 = Ok c1 -> compile_in it2 h shp dflt2 um2 m2 = Ok c2 -> compile_in it h shp dflt sum sm = Ok c ->
  um_at um1 p1 sum -> sub_at m1 p1 sm -> um_at um2 p2 sum -> sub_at m2 p2 sm ->
  (forall q o n, called h sum sm q KInput o n -> result h shp dflt1 apply init1 c1 (p1 ++ q) o = result h shp dflt2 apply init2 c2 (p2 ++ q) o) ->
  (forall q o n, occurs h sum q o -> called h sum sm q KDeclared o n -> unsupplied h sum sm n ->
     result h shp dflt1 apply init1 c1 (p1 ++ q) o = result h shp dflt2 apply init2 c2 (p2 ++ q) o) ->
  forall q o, occurs h sum q o -> variable h o -> result h shp dflt1 apply init1 c1 (p1 ++ q) o = result h shp dflt2 apply init2 c2 (p2 ++ q) o.
Proof.
  intros V it1 it2 it h shp dflt1 dflt2 dflt um1 m1 c1 p1 um2 m2 c2 p2 sum sm c apply init1 init2 L1 L2 L W1 W2 T1 T2 H1 H2 H A1 B1 A2 B2 I1 I2 q o Ho Vo.
  destruct (c108_supply V it1 it h shp dflt1 dflt um1 m1 c1 p1 sum sm c apply init1 L1 L W1 T1 H1 A1 B1 H) as (init & S & R). rewrite <- (R q o Ho Vo).
  refine (c108_values V it2 it h shp dflt2 dflt um2 m2 c2 p2 sum sm c apply init2 init L2 L W2 T2 H2 A2 B2 H _ _ q o Ho Vo).
  - intros q1 o1 n Hc. rewrite <- (I1 q1 o1 n Hc). eapply S; [|exact Hc]. destruct Hc as (x & r & (_ & ins & outs & decls & subs & C & Hi) & _). exists ins, outs, decls, subs. auto.
  - intros q1 o1 n Ho1 Hc U. rewrite <- (I2 q1 o1 n Ho1 Hc U). eapply S; eassumption.
Qed.
Print Assumptions c112_hierarchy.

(** C112, programs: a model object that is added in several places, of one main model or of several,
    and that compiles on its own, computes the same function everywhere. *)
Theorem c112_program : forall V it1 it2 it l shp dflt1 dflt2 dflt f1 f2 f k1 k2 j um1 m1 c1 p1 um2 m2 c2 p2 sum sm c (apply : nat -> list V -> nat -> V) init1 init2,
  let h := w_heap (whistory l) in
  lawful it1 -> lawful it2 -> lawful it -> follows_rules l -> finished l ->
  tree f1 (whistory l) shp k1 = Some (um1, m1) -> tree f2 (whistory l) shp k2 = Some (um2, m2) -> tree f (whistory l) shp j = Some (sum, sm) ->
  leads (whistory l) k1 p1 j -> leads (whistory l) k2 p2 j -> inputs_not_targets h um1 m1 -> inputs_not_targets h um2 m2 ->
  compile_in it1 h shp dflt1 um1 m1 = Ok c1 -> compile_in it2 h shp dflt2 um2 m2 = Ok c2 -> compile_in it h shp dflt sum sm = Ok c ->
  (forall q o n, called h sum sm q KInput o n -> result h shp dflt1 apply init1 c1 (p1 ++ q) o = result h shp dflt2 apply init2 c2 (p2 ++ q) o) ->
  (forall q o n, occurs h sum q o -> called h sum sm q KDeclared o n -> unsupplied h sum sm n ->
     result h shp dflt1 apply init1 c1 (p1 ++ q) o = result h shp dflt2 apply init2 c2 (p2 ++ q) o) ->
  forall q o, occurs h sum q o -> variable h o -> result h shp dflt1 apply init1 c1 (p1 ++ q) o = result h shp dflt2 apply init2 c2 (p2 ++ q) o.
Proof.
  intros V it1 it2 it l shp dflt1 dflt2 dflt f1 f2 f k1 k2 j um1 m1 c1 p1 um2 m2 c2 p2 sum sm c apply init1 init2 h L1 L2 L FR FI T1 T2 T D1 D2 TI1 TI2 H1 H2 H.
  destruct (leads_at _ shp k1 p1 j D1 f1 f um1 m1 sum sm T1 T) as [A1 B1]. destruct (leads_at _ shp k2 p2 j D2 f2 f um2 m2 sum sm T2 T) as [A2 B2].
  eapply c112_hierarchy with (it1 := it1) (it2 := it2) (it := it) (um1 := um1) (m1 := m1) (um2 := um2) (m2 := m2); try eassumption; eapply c89_well_formed; eassumption.
Qed.
Print Assumptions c112_program.

(** Model 1 is added twice to model 0, and once to model 2. *)
Definition sh : list wevent :=
  [WNew; WOn 0 (EInput "u"); WNew; WOn 1 (EDeclare "x"); WOn 1 (EApply [1] 1); WOn 1 (ERegister "y" 3); WAdd 0 (Some "A") (Some []) 1; WAdd 0 (Some "B") (Some []) 1; WConnect 0 "u" "A.x"; WConnect 0 "u" "B.x";
   WNew; WAdd 2 (Some "C") None 1].
Definition sh_u : umodel := UM [] [3] [1] [].
Definition sh_m : model := Mdl [] [("y", [2])] [("x", [2])] [] [] [] None [].
Definition sh_u1 : umodel := UM [0] [] [] [("A", sh_u); ("B", sh_u)].
Definition sh_m1 : model := Mdl [("u", [2])] [] [] [("u", "A.x"); ("u", "B.x")] [] [] None [("A", Some [], sh_m); ("B", Some [], sh_m)].
Definition sh_u2 : umodel := UM [] [] [] [("C", sh_u)].
Definition sh_m2 : model := Mdl [] [] [] [] [] [] None [("C", None, sh_m)].
Lemma sh_targets : inputs_not_targets (w_heap (whistory sh)) sh_u1 sh_m1 /\ inputs_not_targets (w_heap (whistory sh)) sh_u2 sh_m2.
Proof.
  assert (S1 : forall p y, sub_at sh_m1 p y -> (p = [] /\ y = sh_m1) \/ ((p = ["A"] \/ p = ["B"]) /\ y = sh_m)).
  { intros p y A. inversion A as [|? nm pr sm q ? Hs A']; subst; [auto|]. destruct Hs as [E|[E|[]]]; injection E as <- <- <-; (inversion A' as [|? ? ? ? ? ? Hs' ?]; subst; [auto|destruct Hs']). }
  split.
  - intros p o n (p0 & a & b & (y & A & Hc) & (p' & k & x & s & q & (y' & A' & Hv) & P & -> & F)) (x1 & q1 & ((ob & E & N) & ins & outs & decls & subs & B & Hi) & P1 & Q).
    assert (U : dotted q1 x1 = "u").
    { inversion B as [|? ? ? ? s1 sm p1 ? Hs B']; subst.
      - destruct Hi as [<-|[]]. vm_compute in E. injection E as <-. inversion P1; subst. reflexivity.
      - exfalso. destruct Hs as [Es|[Es|[]]]; injection Es as <- <-; (inversion B' as [|? ? ? ? s2 sm p2 ? Hs B'']; subst; [destruct Hi|destruct Hs]). }
    rewrite U in Q. destruct (S1 _ _ A) as [[-> ->]|[_ ->]]; cbn in Hc; [|destruct Hc].
    destruct (S1 _ _ A') as [[-> ->]|[Hp ->]].
    + assert (Eq : q = []) by (inversion P; reflexivity). subst q. cbn in Q. subst x. destruct Hc as [Hc|[Hc|[]]]; injection Hc as <- <-; destruct F as [F|F]; discriminate F.
    + destruct q as [|q0 q]; [|cbn in Q; destruct q; discriminate Q || (cbn in Q; destruct q0 as [|ch q0]; cbn in Q; [discriminate Q|]; injection Q as _ Q; destruct q0; cbn in Q; discriminate Q)].
      cbn in Q. subst x. destruct k; cbn in Hv; repeat (destruct Hv as [Hv|Hv]; [discriminate Hv|]); destruct Hv.
  - intros p o n (p0 & a & b & (y & A & Hc) & _). exfalso. inversion A as [|? nm pr sm q ? Hs A']; subst; [destruct Hc|]. destruct Hs as [Es|[]]. injection Es as <- <- <-. inversion A' as [|? ? ? ? ? ? Hs' ?]; subst; [destruct Hc|destruct Hs'].
Qed.
Example c112_nonvacuous : exists c c1 c2, follows_rules sh /\ finished sh /\ inputs_not_targets (w_heap (whistory sh)) sh_u1 sh_m1 /\ inputs_not_targets (w_heap (whistory sh)) sh_u2 sh_m2 /\
  tree 3 (whistory sh) gsh 0 = Some (sh_u1, sh_m1) /\ tree 3 (whistory sh) gsh 2 = Some (sh_u2, sh_m2) /\ tree 3 (whistory sh) gsh 1 = Some (sh_u, sh_m) /\
  leads (whistory sh) 0 ["A"] 1 /\ leads (whistory sh) 0 ["B"] 1 /\ leads (whistory sh) 2 ["C"] 1 /\
  compile_in insertion_order (w_heap (whistory sh)) gsh (fun _ => true) sh_u sh_m = Ok c /\ compile_in backwards (w_heap (whistory sh)) gsh (fun _ => true) sh_u1 sh_m1 = Ok c1 /\
  compile_in insertion_order (w_heap (whistory sh)) gsh (fun _ => true) sh_u2 sh_m2 = Ok c2 /\
  result (w_heap (whistory sh)) gsh (fun _ => true) gf (fun _ => 100%N) c1 ["A"] 1 = 100%N /\ result (w_heap (whistory sh)) gsh (fun _ => true) gf (fun _ => 100%N) c1 ["A"] 3 = 102%N /\
  result (w_heap (whistory sh)) gsh (fun _ => true) gf (fun _ => 100%N) c1 ["B"] 3 = 102%N /\ result (w_heap (whistory sh)) gsh (fun _ => true) gf (fun _ => 100%N) c2 ["C"] 3 = 102%N.
Proof.
  let t := eval vm_compute in (compile_in insertion_order (w_heap (whistory sh)) gsh (fun _ => true) sh_u sh_m) in match t with Ok ?c =>
  let t1 := eval vm_compute in (compile_in backwards (w_heap (whistory sh)) gsh (fun _ => true) sh_u1 sh_m1) in match t1 with Ok ?c1 =>
  let t2 := eval vm_compute in (compile_in insertion_order (w_heap (whistory sh)) gsh (fun _ => true) sh_u2 sh_m2) in match t2 with Ok ?c2 => exists c, c1, c2 end end end.
  split; [apply rules_check; vm_compute; reflexivity|]. split; [apply finished_check; vm_compute; reflexivity|]. split; [apply sh_targets|]. split; [apply sh_targets|]. do 3 (split; [vm_compute; reflexivity|]).
  split; [eapply leads_sub; [vm_compute; reflexivity|left; reflexivity|constructor]|]. split; [eapply leads_sub; [vm_compute; reflexivity|right; left; reflexivity|constructor]|].
  split; [eapply leads_sub; [vm_compute; reflexivity|left; reflexivity|constructor]|]. repeat split; vm_compute; reflexivity.
Qed.
