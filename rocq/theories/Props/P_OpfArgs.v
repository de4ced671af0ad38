(** Properties C104-C107: what the calling forms of an optimal power flow mean, and what a call leaves behind. *)
From Coq Require Import Lia.
From Verif Require Import Model.OpfArgs Spec.CallSpec.
Local Open Scope string_scope.

Lemma bind_ok {A B} (e : result A) (f : A -> result B) y : (x <- e ;; f x) = Ok y -> exists x, e = Ok x /\ f x = Ok y.
Proof. destruct e as [x|]; cbn; [eauto|discriminate]. Qed.

Lemma empty_silent role v b :
  existsb (String.eqb role) ["A"; "N"; "H"] = false -> none_or_empty v = Ok b -> b = silent role v.
Proof.
  unfold none_or_empty, silent. intros Hr H.
  destruct v as [|s|i|i n|i r c|i r c|d]; cbn in *; try discriminate H; try congruence.
  - rewrite Hr. destruct s; cbn in *; congruence.
  - rewrite Hr. destruct n; cbn in *; congruence.
  - rewrite Hr. destruct r; cbn in *; congruence.
  - rewrite Hr. destruct d; cbn in *; congruence.
Qed.

Section Calls.
Variable ppoption : val.
Variable loadcase : val -> result (list (string * val)).

(** what the last look keeps *)
Lemma looked_roles o o' :
  looked_at ppoption o = Ok o' ->
  (forall role, role <> "ppopt" -> role_value o' role = role_value o role) /\
  a_ppopt (o_user o') = (if silent "ppopt" (a_ppopt (o_user o)) then ppoption else a_ppopt (o_user o)).
Proof.
  destruct o as [ba bu ge br gc ar [Au lbu ubu ppopt N fparm H Cw z0 zl zu uf]]. unfold looked_at. cbn [o_user].
  intros Hl. apply bind_ok in Hl as (nw & _ & Hl). apply bind_ok in Hl as (tt' & _ & Hl).
  apply bind_ok in Hl as (e & He & Hl). injection Hl as <-.
  cbn [o_user a_ppopt]. split.
  - intros role Hr. unfold role_value.
    cbn [dget o_user o_baseMVA o_bus o_gen o_branch o_areas o_gencost a_Au a_lbu a_ubu a_ppopt a_N a_fparm a_H a_Cw a_z0 a_zl a_zu a_userfcn].
    destruct ("ppopt" =? role) eqn:E; [|reflexivity].
    apply String.eqb_eq in E. congruence.
  - rewrite (empty_silent "ppopt" _ _ eq_refl He). reflexivity.
Qed.

Definition user_value (u : user_args) (role : string) : option val :=
  role_value (OpfInput PNone PNone PNone PNone PNone PNone u) role.
Definition user_roles : list string :=
  ["ppopt"; "userfcn"; "A"; "l"; "u"; "N"; "fparm"; "H"; "Cw"; "z0"; "zl"; "zu"].

(** the unpacking gives every role its argument *)
Lemma case_args_roles form args c u :
  In form case_forms -> List.length args = List.length form -> case_args ppoption args = Ok (c, u) ->
  nth_error args 0 = Some c /\
  forall role, In role user_roles ->
    user_value u role = Some (match given form args role with
                              | Some v => v
                              | None => if role =? "ppopt" then ppoption else nothing role end).
Proof.
  intros Hf Hl Hc. cbn in Hf.
  destruct Hf as [<-|[<-|[<-|[<-|[<-|[<-|[<-|[]]]]]]]]; cbn in Hl;
    repeat (destruct args as [|? args]; cbn in Hl; try discriminate Hl);
    cbn in Hc; injection Hc as <- <-; (split; [reflexivity|]);
    intros role Hr; cbn in Hr;
    repeat (destruct Hr as [<-|Hr]; [reflexivity|]); destruct Hr.
Qed.

Lemma matrix_args_roles form args o :
  In form matrix_forms -> List.length args = List.length form -> matrix_args ppoption args = Ok o ->
  forall role, In role all_roles ->
    role_value o role = Some (match given form args role with
                              | Some v => v
                              | None => if role =? "ppopt" then ppoption else nothing role end).
Proof.
  intros Hf Hl Hc. cbn in Hf.
  destruct Hf as [<-|[<-|[<-|[<-|[<-|[<-|[<-|[]]]]]]]]; cbn in Hl;
    repeat (destruct args as [|? args]; cbn in Hl; try discriminate Hl);
    cbn in Hc; injection Hc as <-;
    intros role Hr; cbn in Hr;
    repeat (destruct Hr as [<-|Hr]; [reflexivity|]); destruct Hr.
Qed.

Lemma dkey_ok d k v : dkey d k = Ok v -> dget d k = Some v.
Proof. unfold dkey, of_option. destruct (dget d k); congruence. Qed.

(** C104, first part: calls that begin with a case *)
Theorem C104_case_forms form args c case o :
  In form case_forms -> List.length args = List.length form ->
  nth_error args 0 = Some c -> (exists s, c = PStr s) \/ (exists d, c = PDict d) ->
  loadcase c = Ok case ->
  opf_args ppoption loadcase args = Ok o ->
  forall role, In role all_roles -> role_value o role = choice ppoption form args case role.
Proof.
  intros Hf Hl Hc Hk Hload Ho.
  assert (Hopf : ('(casefile, u) <- case_args ppoption args ;; ppc <- loadcase casefile ;; o <- from_case ppc u ;;
                  looked_at ppoption o) = Ok o).
  { destruct args as [|a args]; [discriminate|]. cbn in Hc. injection Hc as ->.
    destruct Hk as [(s & ->)|(d & ->)]; exact Ho. }
  clear Ho Hk.
  apply bind_ok in Hopf as ((c' & u) & Hu & Hopf).
  destruct (case_args_roles _ _ _ _ Hf Hl Hu) as (Hc' & HU).
  rewrite Hc in Hc'. injection Hc' as <-.
  rewrite Hload in Hopf. cbn [bind] in Hopf.
  apply bind_ok in Hopf as (o0 & Ho0 & Hlook).
  apply looked_roles in Hlook as (HL & HP).
  destruct u as [Au lbu ubu ppopt N fparm H Cw z0 zl zu uf]. unfold from_case in Ho0.
  apply bind_ok in Ho0 as (ba & Hba & Ho0). apply bind_ok in Ho0 as (bu & Hbu & Ho0).
  apply bind_ok in Ho0 as (ge & Hge & Ho0). apply bind_ok in Ho0 as (br & Hbr & Ho0).
  apply bind_ok in Ho0 as (gc & Hgc & Ho0).
  apply bind_ok in Ho0 as (((Au' & lbu') & ubu') & HA & Ho0).
  apply bind_ok in Ho0 as ((N' & Cw') & HN & Ho0).
  apply bind_ok in Ho0 as (fparm' & Hfp & Ho0). apply bind_ok in Ho0 as (z0' & Hz0 & Ho0).
  apply bind_ok in Ho0 as (zl' & Hzl & Ho0). apply bind_ok in Ho0 as (zu' & Hzu & Ho0).
  apply bind_ok in Ho0 as (uf' & Huf & Ho0). injection Ho0 as <-.
  apply dkey_ok in Hba, Hbu, Hge, Hbr, Hgc.
  assert (G0 : forall r, In r data_names -> given form args r = None).
  { clear - Hf Hl. intros r Hr. cbn in Hf, Hr.
    destruct Hf as [<-|[<-|[<-|[<-|[<-|[<-|[<-|[]]]]]]]]; cbn in Hl;
    repeat (destruct args as [|? args]; cbn in Hl; try discriminate Hl);
    repeat (destruct Hr as [<-|Hr]; [reflexivity|]); destruct Hr. }
  assert (GO : forall r, In r user_roles -> r <> "ppopt" -> given form args r = None ->
                 silent r (nothing r) = true) by
    (clear; intros r Hr _ _; cbn in Hr; repeat (destruct Hr as [<-|Hr]; [reflexivity|]); destruct Hr).
  assert (G1 : forall r, In r ["l"; "u"; "Cw"] -> stated form args (lead r) = true -> given form args r <> None).
  { clear - Hf Hl. intros r Hr. cbn in Hf, Hr.
    destruct Hf as [<-|[<-|[<-|[<-|[<-|[<-|[<-|[]]]]]]]]; cbn in Hl;
    repeat (destruct args as [|? args]; cbn in Hl; try discriminate Hl);
    repeat (destruct Hr as [<-|Hr]; [discriminate|]); destruct Hr. }
  intros role Hr. cbn in Hr.
  pose proof (HU "A" ltac:(cbn; tauto)) as UA. pose proof (HU "N" ltac:(cbn; tauto)) as UN.
  cbn in UA, UN. injection UA as UA. injection UN as UN.
  assert (EA : is_none Au = negb (stated form args "A")).
  { rewrite UA. unfold stated. destruct (given form args "A") as [v|]; [|reflexivity].
    destruct v as [|s|i|i n|i r c0|i r c0|d]; cbn; try reflexivity;
      (destruct s || destruct n || destruct r || destruct d); reflexivity. }
  assert (EN : is_none N = negb (stated form args "N")).
  { rewrite UN. unfold stated. destruct (given form args "N") as [v|]; [|reflexivity].
    destruct v as [|s|i|i n|i r c0|i r c0|d]; cbn; try reflexivity;
      (destruct s || destruct n || destruct r || destruct d); reflexivity. }
  assert (HE : forall v v' r, In r ["fparm"; "z0"; "zl"; "zu"; "userfcn"] ->
      Some v = Some (match given form args r with Some w => w | None => nothing r end) ->
      (b <- none_or_empty v ;; Ok (if b then match dget case r with Some w => w | None => v end else v)) = Ok v' ->
      Some v' = choice ppoption form args case r).
  { intros v v' r Hin Hv He. apply bind_ok in He as (b & Hb & He). injection He as <-. injection Hv as Hv.
    assert (Hr3 : existsb (String.eqb r) ["A"; "N"; "H"] = false /\ lead r = r /\ (r =? "ppopt") = false /\ nothing r = empty_array)
      by (clear - Hin; cbn in Hin; repeat (destruct Hin as [<-|Hin]; [repeat split|]); destruct Hin).
    destruct Hr3 as (Hr3 & Hlead & Hpp & Hno).
    rewrite (empty_silent r _ _ Hr3 Hb). unfold choice, stated. rewrite Hlead, Hpp. unfold has_key.
    destruct (given form args r) as [w|] eqn:Eg; subst v.
    - destruct (silent r w); cbn [negb]; [destruct (dget case r); reflexivity|reflexivity].
    - rewrite Hno. unfold silent at 1. cbn [empty_array]. rewrite Hr3. cbn [negb].
      destruct (dget case r); reflexivity. }
  destruct Hr as [<-|[<-|[<-|[<-|[<-|[<-|Hr]]]]]];
    try (rewrite HL by discriminate; unfold choice, stated; cbn [lead String.eqb]; 
         rewrite G0 by (cbn; tauto); cbn; unfold has_key; 
         rewrite ?Hba, ?Hbu, ?Hge, ?Hbr, ?Hgc; reflexivity).
  { rewrite HL by discriminate. unfold choice, stated. rewrite !G0 by (cbn; tauto). cbn. unfold has_key.
    destruct (dget case "areas"); reflexivity. }
  destruct Hr as [<-|[<-|[<-|[<-|[<-|[<-|[<-|[<-|[<-|[<-|[<-|[<-|[]]]]]]]]]]]]].
  - (* ppopt *)
    pose proof (HU "ppopt" ltac:(cbn; tauto)) as U. cbn in U. injection U as U.
    cbn. rewrite HP. cbn [o_user a_ppopt]. unfold choice, stated. cbn [lead String.eqb]. rewrite U. cbn.
    destruct (given form args "ppopt") as [w|] eqn:Eg; [|destruct (silent "ppopt" ppoption); reflexivity].
    destruct (silent "ppopt" w); reflexivity.
  - rewrite HL by discriminate. exact (HE _ _ "userfcn" ltac:(cbn; tauto) (HU "userfcn" ltac:(cbn; tauto)) Huf).
  - rewrite HL by discriminate. cbn. unfold choice. cbn. rewrite EA in HA.
    destruct (stated form args "A") eqn:ES; cbn [negb andb] in HA.
    + injection HA as <- <- <-. unfold stated in ES. rewrite UA.
      destruct (given form args "A"); [reflexivity|discriminate].
    + destruct (has_key case "A") eqn:EK.
      * apply bind_ok in HA as (a & Ha & HA). apply bind_ok in HA as (l & Hl' & HA). apply bind_ok in HA as (u & Hu' & HA).
        injection HA as <- <- <-. apply dkey_ok in Ha. congruence.
      * injection HA as <- <- <-. rewrite UA. destruct (given form args "A"); reflexivity.
  - rewrite HL by discriminate. cbn. unfold choice. cbn. rewrite EA in HA.
    pose proof (HU "l" ltac:(cbn; tauto)) as U. cbn in U. injection U as U.
    destruct (stated form args "A") eqn:ES; cbn [negb andb] in HA.
    + injection HA as <- <- <-. pose proof (G1 "l" ltac:(cbn; tauto) ES) as G. rewrite U.
      destruct (given form args "l"); [reflexivity|congruence].
    + destruct (has_key case "A") eqn:EK.
      * apply bind_ok in HA as (a & Ha & HA). apply bind_ok in HA as (l & Hl' & HA). apply bind_ok in HA as (u & Hu' & HA).
        injection HA as <- <- <-. apply dkey_ok in Hl'. congruence.
      * injection HA as <- <- <-. rewrite U. destruct (given form args "l"); reflexivity.
  - rewrite HL by discriminate. cbn. unfold choice. cbn. rewrite EA in HA.
    pose proof (HU "u" ltac:(cbn; tauto)) as U. cbn in U. injection U as U.
    destruct (stated form args "A") eqn:ES; cbn [negb andb] in HA.
    + injection HA as <- <- <-. pose proof (G1 "u" ltac:(cbn; tauto) ES) as G. rewrite U.
      destruct (given form args "u"); [reflexivity|congruence].
    + destruct (has_key case "A") eqn:EK.
      * apply bind_ok in HA as (a & Ha & HA). apply bind_ok in HA as (l & Hl' & HA). apply bind_ok in HA as (u & Hu' & HA).
        injection HA as <- <- <-. apply dkey_ok in Hu'. congruence.
      * injection HA as <- <- <-. rewrite U. destruct (given form args "u"); reflexivity.
  - rewrite HL by discriminate. cbn. unfold choice. cbn. rewrite EN in HN.
    pose proof (HU "N" ltac:(cbn; tauto)) as U. cbn in U. injection U as U.
    destruct (stated form args "N") eqn:ES; cbn [negb andb] in HN.
    + injection HN as <- <-. unfold stated in ES. rewrite U.
      destruct (given form args "N"); [reflexivity|discriminate].
    + destruct (has_key case "N") eqn:EK.
      * apply bind_ok in HN as (n & Hn & HN). apply bind_ok in HN as (cw & Hcw & HN).
        injection HN as <- <-. apply dkey_ok in Hn. congruence.
      * injection HN as <- <-. rewrite U. destruct (given form args "N"); reflexivity.
  - rewrite HL by discriminate. exact (HE _ _ "fparm" ltac:(cbn; tauto) (HU "fparm" ltac:(cbn; tauto)) Hfp).
  - rewrite HL by discriminate. cbn. unfold choice. cbn.
    pose proof (HU "H" ltac:(cbn; tauto)) as U. cbn in U. injection U as U.
    assert (EH : is_none H = negb (stated form args "H")).
    { rewrite U. unfold stated. destruct (given form args "H") as [v|]; [|reflexivity].
      destruct v as [|s|i|i n|i r c0|i r c0|d]; cbn; try reflexivity;
        (destruct s || destruct n || destruct r || destruct d); reflexivity. }
    rewrite EH. unfold stated, has_key. rewrite U.
    destruct (given form args "H") as [v|]; cbn [negb]; [|destruct (dget case "H"); reflexivity].
    destruct (silent "H" v); cbn [negb]; [destruct (dget case "H"); reflexivity|reflexivity].
  - rewrite HL by discriminate. cbn. unfold choice. cbn. rewrite EN in HN.
    pose proof (HU "Cw" ltac:(cbn; tauto)) as U. cbn in U. injection U as U.
    destruct (stated form args "N") eqn:ES; cbn [negb andb] in HN.
    + injection HN as <- <-. pose proof (G1 "Cw" ltac:(cbn; tauto) ES) as G. rewrite U.
      destruct (given form args "Cw"); [reflexivity|congruence].
    + destruct (has_key case "N") eqn:EK.
      * apply bind_ok in HN as (n & Hn & HN). apply bind_ok in HN as (cw & Hcw & HN).
        injection HN as <- <-. apply dkey_ok in Hcw. congruence.
      * injection HN as <- <-. rewrite U. destruct (given form args "Cw"); reflexivity.
  - rewrite HL by discriminate. exact (HE _ _ "z0" ltac:(cbn; tauto) (HU "z0" ltac:(cbn; tauto)) Hz0).
  - rewrite HL by discriminate. exact (HE _ _ "zl" ltac:(cbn; tauto) (HU "zl" ltac:(cbn; tauto)) Hzl).
  - rewrite HL by discriminate. exact (HE _ _ "zu" ltac:(cbn; tauto) (HU "zu" ltac:(cbn; tauto)) Hzu).
Qed.

(** C104, second part: calls that begin with the data matrices *)
Theorem C104_matrix_forms form args o :
  In form matrix_forms -> List.length args = List.length form ->
  (forall s, nth_error args 0 <> Some (PStr s)) -> (forall d, nth_error args 0 <> Some (PDict d)) ->
  opf_args ppoption loadcase args = Ok o ->
  forall role, In role all_roles -> role_value o role = choice ppoption form args [] role.
Proof.
  intros Hf Hl Hs Hd Ho.
  assert (Hm : (o <- matrix_args ppoption args ;; looked_at ppoption o) = Ok o).
  { destruct args as [|a args]; [discriminate Ho|]. destruct a; try exact Ho;
      [destruct (Hs s); reflexivity|destruct (Hd d); reflexivity]. }
  clear Ho. apply bind_ok in Hm as (o0 & Hm & Hlook). apply looked_roles in Hlook as (HL & HP).
  pose proof (matrix_args_roles _ _ _ Hf Hl Hm) as HU.
  assert (G1 : forall r, In r ["l"; "u"; "Cw"] -> stated form args (lead r) = true -> given form args r <> None).
  { clear - Hf Hl. intros r Hr. cbn in Hf, Hr.
    destruct Hf as [<-|[<-|[<-|[<-|[<-|[<-|[<-|[]]]]]]]]; cbn in Hl;
    repeat (destruct args as [|? args]; cbn in Hl; try discriminate Hl);
    repeat (destruct Hr as [<-|Hr]; [discriminate|]); destruct Hr. }
  intros role Hr. destruct (role =? "ppopt") eqn:Ep.
  - apply String.eqb_eq in Ep as ->. cbn. rewrite HP. specialize (HU "ppopt" Hr). cbn in HU. injection HU as U.
    unfold choice, stated. cbn [lead String.eqb]. rewrite U. cbn.
    destruct (given form args "ppopt") as [w|] eqn:Eg; [|destruct (silent "ppopt" ppoption); reflexivity].
    destruct (silent "ppopt" w); reflexivity.
  - rewrite HL by (intros ->; discriminate Ep). rewrite (HU role Hr), Ep. unfold choice. rewrite Ep. cbn [has_key dget].
    destruct (stated form args (lead role)) eqn:ES; [|destruct (given form args role); reflexivity].
    destruct (given form args role) eqn:Eg; [reflexivity|].
    destruct (lead role =? role) eqn:El.
    + apply String.eqb_eq in El. rewrite El in ES. unfold stated in ES. rewrite Eg in ES. discriminate.
    + assert (In role ["l"; "u"; "Cw"]).
      { unfold lead in El. destruct (role =? "l") eqn:E1; [apply String.eqb_eq in E1 as ->; cbn; tauto|].
        destruct (role =? "u") eqn:E2; [apply String.eqb_eq in E2 as ->; cbn; tauto|].
        destruct (role =? "Cw") eqn:E3; [apply String.eqb_eq in E3 as ->; cbn; tauto|].
        cbn in El. rewrite String.eqb_refl in El. discriminate. }
      destruct (G1 _ H ES Eg).
Qed.

(** other numbers of arguments are refused *)
Theorem C104_other_counts args o :
  opf_args ppoption loadcase args = Ok o ->
  In (List.length args) (map (@List.length string) case_forms) \/
  In (List.length args) (map (@List.length string) matrix_forms).
Proof.
  intros H. destruct args as [|a args]; [discriminate|].
  destruct a;
    try (right; cbn in H; 
         do 5 (destruct args as [|? args]; [discriminate H|]);
         do 12 (destruct args as [|? args]; [first [discriminate H | cbn; tauto]|]); discriminate H);
    (left; cbn in H; do 12 (destruct args as [|? args]; [first [discriminate H | cbn; tauto]|]); discriminate H).
Qed.

(** every call that is accepted has one of the documented forms *)
Lemma case_args_form args c u : case_args ppoption args = Ok (c, u) ->
  exists form, In form case_forms /\ List.length args = List.length form.
Proof.
  intros H. do 13 (destruct args as [|? args]; [first [discriminate H
    | exists (nth 0 case_forms []); split; [cbn; tauto|reflexivity] | exists (nth 1 case_forms []); split; [cbn; tauto|reflexivity]
    | exists (nth 2 case_forms []); split; [cbn; tauto|reflexivity] | exists (nth 3 case_forms []); split; [cbn; tauto|reflexivity]
    | exists (nth 4 case_forms []); split; [cbn; tauto|reflexivity] | exists (nth 5 case_forms []); split; [cbn; tauto|reflexivity]
    | exists (nth 6 case_forms []); split; [cbn; tauto|reflexivity]]|]); discriminate H.
Qed.
End Calls.

Lemma dget_dset d k v k' : dget (dset d k v) k' = if k =? k' then Some v else dget d k'.
Proof.
  induction d as [|(k0 & v0) d IH]; cbn [dset dget]; [reflexivity|].
  destruct (k0 =? k) eqn:E; cbn [dget].
  - apply String.eqb_eq in E as ->. destruct (k =? k'); reflexivity.
  - rewrite IH. destruct (k0 =? k') eqn:E'; [|reflexivity].
    apply String.eqb_eq in E' as ->. rewrite String.eqb_sym, E. reflexivity.
Qed.

Lemma dset_same d k v : dget d k = Some v -> dset d k v = d.
Proof.
  induction d as [|(k0 & v0) d IH]; cbn [dset dget]; [discriminate|].
  destruct (k0 =? k) eqn:E.
  - apply String.eqb_eq in E as ->. congruence.
  - intros H. rewrite (IH H). reflexivity.
Qed.

Section Problem.
Variable ppoption : val.
Variable loadcase : val -> result (list (string * val)).
Hypothesis load_dict : forall d, loadcase (PDict d) = Ok d.     (* a copy with the same entries *)

(** what a call that begins with a case dict or a file name starts from *)
Definition start (args : list val) : list (string * val) := match args with PDict d :: _ => d | _ => [] end.

Definition is_filled (v : val) : bool := match filled v with Ok b => b | Err _ => false end.

(** the entries of the case that opf_args2 hands on *)
Lemma args2_entries args ppc op o :
  opf_args ppoption loadcase args = Ok o -> opf_args2 ppoption loadcase args = Ok (ppc, op) ->
  let u := o_user o in
  op = a_ppopt u /\
  dget ppc "baseMVA" = Some (o_baseMVA o) /\ dget ppc "bus" = Some (o_bus o) /\ dget ppc "gen" = Some (o_gen o) /\
  dget ppc "branch" = Some (o_branch o) /\ dget ppc "gencost" = Some (o_gencost o) /\
  (forall role v, In (role, v) [("areas", o_areas o); ("z0", a_z0 u); ("zl", a_zl u); ("zu", a_zu u); ("userfcn", a_userfcn u)] ->
     filled v = Ok (is_filled v) /\ dget ppc role = if is_filled v then Some v else dget (start args) role) /\
  (forall role v, In (role, v) [("A", a_Au u); ("l", a_lbu u); ("u", a_ubu u)] ->
     dget ppc role = if is_filled (a_lbu u) then Some v else dget (start args) role) /\
  (forall role v, In (role, v) [("N", a_N u); ("Cw", a_Cw u); ("H", a_H u)] ->
     dget ppc role = if is_filled (a_Cw u) then Some v else dget (start args) role) /\
  (dget ppc "fparm" = if is_filled (a_Cw u) && is_filled (a_fparm u) then Some (a_fparm u) else dget (start args) "fparm") /\
  (is_filled (a_Cw u) = true -> exists n, py_len (a_fparm u) = Ok n /\ is_filled (a_fparm u) = negb (Nat.eqb n 0)) /\
  (forall k, ~ In k all_roles -> dget ppc k = dget (start args) k).
Proof.
  intros Ho H2. unfold opf_args2 in H2. rewrite Ho in H2. cbn [bind] in H2.
  destruct o as [ba bu ge br gc ar [Au lbu ubu ppopt N fparm H Cw z0 zl zu uf]].
  cbn [o_user o_baseMVA o_bus o_gen o_branch o_gencost o_areas] in *.
  fold (start args) in H2. set (d := start args) in *. clearbody d. clear Ho.
  apply bind_ok in H2 as (ba' & Har & H2). apply bind_ok in H2 as (bl & Hbl & H2). apply bind_ok in H2 as (bc & Hbc & H2).
  apply bind_ok in H2 as (ppc1 & Hp1 & H2).
  apply bind_ok in H2 as (b0 & Hb0 & H2). apply bind_ok in H2 as (b1 & Hb1 & H2). apply bind_ok in H2 as (b2 & Hb2 & H2).
  apply bind_ok in H2 as (b3 & Hb3 & H2). injection H2 as <- <-.
  assert (FA : is_filled ar = ba') by (unfold is_filled; rewrite Har; reflexivity).
  assert (FL : is_filled lbu = bl) by (unfold is_filled; rewrite Hbl; reflexivity).
  assert (FC : is_filled Cw = bc) by (unfold is_filled; rewrite Hbc; reflexivity).
  assert (F0 : is_filled z0 = b0) by (unfold is_filled; rewrite Hb0; reflexivity).
  assert (F1 : is_filled zl = b1) by (unfold is_filled; rewrite Hb1; reflexivity).
  assert (F2 : is_filled zu = b2) by (unfold is_filled; rewrite Hb2; reflexivity).
  assert (F3 : is_filled uf = b3) by (unfold is_filled; rewrite Hb3; reflexivity).
  cbn [a_Au a_lbu a_ubu a_ppopt a_N a_fparm a_H a_Cw a_z0 a_zl a_zu a_userfcn].
  set (d5 := dset _ "gencost" gc) in *.
  set (d6 := if ba' then dset d5 "areas" ar else d5) in *.
  set (d7 := if bl then _ else d6) in *.
  assert (K : forall k, dget ppc1 k =
     if bc then (if "H" =? k then Some H else if ("fparm" =? k) && is_filled fparm then Some fparm
                 else if "Cw" =? k then Some Cw else if "N" =? k then Some N else dget d7 k) else dget d7 k).
  { intros k. destruct bc; [|injection Hp1 as <-; reflexivity].
    apply bind_ok in Hp1 as (n & Hn & Hp1). injection Hp1 as <-. rewrite dget_dset.
    destruct ("H" =? k); [reflexivity|].
    assert (Fp : is_filled fparm = negb (Nat.eqb n 0)).
    { unfold is_filled, filled, none_or_empty. destruct fparm; cbn in Hn |- *; try discriminate Hn; injection Hn as <-; reflexivity. }
    rewrite Fp. destruct (Nat.eqb n 0); cbn [negb andb]; rewrite ?andb_false_r, ?andb_true_r;
      rewrite !dget_dset; destruct ("fparm" =? k); reflexivity. }
  assert (Kf : bc = true -> exists n, py_len fparm = Ok n /\ is_filled fparm = negb (Nat.eqb n 0)).
  { intros ->. apply bind_ok in Hp1 as (n & Hn & _). exists n. split; [exact Hn|].
    unfold is_filled, filled, none_or_empty. destruct fparm; cbn in Hn |- *; try discriminate Hn; injection Hn as <-; reflexivity. }
  clear Hp1.
  split; [reflexivity|].
  match goal with |- context [dget ?P "baseMVA"] => set (PP := P) end.
  assert (G : forall k, dget PP k =
     if b3 && ("userfcn" =? k) then Some uf else if b2 && ("zu" =? k) then Some zu else if b1 && ("zl" =? k) then Some zl
     else if b0 && ("z0" =? k) then Some z0 else dget ppc1 k).
  { intros k. unfold PP. destruct b0, b1, b2, b3; cbn [andb]; rewrite ?dget_dset; reflexivity. }
  assert (G7 : forall k, dget d7 k = if bl && ("u" =? k) then Some ubu else if bl && ("l" =? k) then Some lbu
     else if bl && ("A" =? k) then Some Au else if ba' && ("areas" =? k) then Some ar
     else if "gencost" =? k then Some gc else if "branch" =? k then Some br else if "gen" =? k then Some ge
     else if "bus" =? k then Some bu else if "baseMVA" =? k then Some ba else dget d k).
  { intros k. unfold d7, d6, d5. destruct bl, ba'; cbn [andb]; rewrite ?dget_dset; reflexivity. }
  clearbody d7.
  clearbody PP.
  rewrite FC, FL.
  repeat apply conj.
  1-5: rewrite G, K, G7; destruct b3, b2, b1, b0, bc, bl, ba'; reflexivity.
  - intros role v Hr. cbn in Hr.
    destruct Hr as [Hr|[Hr|[Hr|[Hr|[Hr|[]]]]]]; injection Hr as <- <-; (split; [congruence|]);
      rewrite G, K, G7, ?FA, ?F0, ?F1, ?F2, ?F3; destruct b3, b2, b1, b0, bc, bl, ba'; reflexivity.
  - intros role v Hr. cbn in Hr.
    destruct Hr as [Hr|[Hr|[Hr|[]]]]; injection Hr as <- <-; rewrite G, K, G7; destruct b3, b2, b1, b0, bc, bl, ba'; reflexivity.
  - intros role v Hr. cbn in Hr.
    destruct Hr as [Hr|[Hr|[Hr|[]]]]; injection Hr as <- <-; rewrite G, K, G7; destruct b3, b2, b1, b0, bc, bl, ba'; cbn; rewrite ?andb_false_r; reflexivity.
  - rewrite G, K, G7. destruct b3, b2, b1, b0, bc, bl, ba', (is_filled fparm); reflexivity.
  - exact Kf.
  - intros k Hk. rewrite G, K, G7.
    assert (E : forall r, In r all_roles -> (r =? k) = false).
    { intros r Hr. apply String.eqb_neq. intros ->. exact (Hk Hr). }
    rewrite !E by (cbn; tauto). rewrite ?andb_false_r. destruct bc; reflexivity.
Qed.

Lemma not_filled_silent role v :
  existsb (String.eqb role) ["A"; "N"; "H"] = false -> filled v = Ok (is_filled v) -> is_filled v = false -> silent role v = true.
Proof.
  intros Hr Hf He. rewrite He in Hf. unfold filled in Hf. apply bind_ok in Hf as (b & Hb & Hf).
  destruct b; [|discriminate]. symmetry. exact (empty_silent role v true Hr Hb).
Qed.

Lemma start_silent args o role v :
  opf_args ppoption loadcase args = Ok o -> In role all_roles -> lead role = role -> role <> "ppopt" ->
  role_value o role = Some v -> silent role v = true ->
  dget (start args) role = None \/ exists w, dget (start args) role = Some w /\ silent role w = true.
Proof.
  intros Ho Hr Hlead Hp Hv Hs. destruct args as [|a args]; [discriminate|].
  destruct a as [|s|i|i n|i r c|i r c|d]; cbn [start]; try (left; reflexivity).
  cbn [opf_args] in Ho. pose proof Ho as Ho'. apply bind_ok in Ho as ((c & u) & Hc & _).
  destruct (case_args_form ppoption loadcase _ _ _ Hc) as (form & Hf & Hl).
  pose proof (C104_case_forms ppoption loadcase form (PDict d :: args) (PDict d) d o Hf Hl eq_refl
                ltac:(right; eauto) (load_dict d) Ho' role Hr) as C.
  rewrite Hv in C. unfold choice in C. rewrite Hlead in C.
  unfold stated in C. unfold has_key in C.
  assert (Hpe : (role =? "ppopt") = false) by (apply String.eqb_neq; exact Hp). rewrite Hpe in C.
  destruct (dget d role) as [w|]; [|left; reflexivity]. right. exists w. split; [reflexivity|].
  destruct (given form (PDict d :: args) role) as [g|]; [destruct (silent role g) eqn:Eg; cbn [negb] in C|]; congruence.
Qed.

(** C105: what a call says about constraints, costs and variables reaches the problem that is set up from the case
    handed on (opf.py:150 fills the case, opf_setup.py:109 reads it again), provided that given constraints have
    lower bounds and given costs have weights, with entries in both. *)
Theorem C105_reaches_partial args o ppc op o' :
  opf_args ppoption loadcase args = Ok o ->
  opf_args2 ppoption loadcase args = Ok (ppc, op) ->
  (a_Au (o_user o) <> PNone -> is_filled (a_lbu (o_user o)) = true) ->
  (a_N (o_user o) <> PNone -> is_filled (a_Cw (o_user o)) = true) ->
  opf_args ppoption loadcase [PDict ppc; op] = Ok o' ->
  same_problem o o'.
Proof.
  intros Ho H2 HA HN Ho'.
  destruct (args2_entries _ _ _ _ Ho H2) as (Eop & E1 & E2 & E3 & E4 & E5 & EZ & EA & EN & Ef & Efn & _).
  pose proof (C104_case_forms ppoption loadcase ["ppc"; "ppopt"] [PDict ppc; op] (PDict ppc) ppc o'
                ltac:(cbn; tauto) eq_refl eq_refl ltac:(right; eauto) (load_dict ppc) Ho') as C.
  assert (CU : forall role, In role all_roles -> role <> "ppopt" ->
            role_value o' role = if has_key ppc (lead role) then dget ppc role else Some (nothing role)).
  { intros role Hr Hp. rewrite (C role Hr). unfold choice.
    assert (Hpe : (role =? "ppopt") = false) by (apply String.eqb_neq; exact Hp). rewrite Hpe.
    clear - Hr Hp. cbn in Hr.
    repeat (destruct Hr as [<-|Hr]; [first [reflexivity|contradiction]|]); destruct Hr. }
  assert (SA : a_Au (o_user o) = PNone -> is_filled (a_lbu (o_user o)) = false ->
               dget ppc "A" = None \/ dget ppc "A" = Some PNone).
  { intros HAn HLn. rewrite (EA "A" _ ltac:(cbn; tauto)), HLn.
    destruct (start_silent args o "A" PNone Ho ltac:(cbn; tauto) eq_refl ltac:(discriminate)) as [S|(w & S & Sw)];
      [cbn; rewrite HAn; reflexivity|reflexivity|left; exact S|right].
    rewrite S. destruct w as [|s|i|i n|i r c|i r c|d]; cbn in Sw; try discriminate Sw; try reflexivity;
      (destruct s || destruct n || destruct r || destruct d); discriminate Sw. }
  assert (SN : a_N (o_user o) = PNone -> is_filled (a_Cw (o_user o)) = false ->
               dget ppc "N" = None \/ dget ppc "N" = Some PNone).
  { intros HAn HLn. rewrite (EN "N" _ ltac:(cbn; tauto)), HLn.
    destruct (start_silent args o "N" PNone Ho ltac:(cbn; tauto) eq_refl ltac:(discriminate)) as [S|(w & S & Sw)];
      [cbn; rewrite HAn; reflexivity|reflexivity|left; exact S|right].
    rewrite S. destruct w as [|s|i|i n|i r c|i r c|d]; cbn in Sw; try discriminate Sw; try reflexivity;
      (destruct s || destruct n || destruct r || destruct d); discriminate Sw. }
  split.
  - intros role Hr. cbn in Hr. destruct Hr as [<-|[<-|[<-|[<-|[<-|[<-|[<-|[<-|[]]]]]]]]].
    1-5: rewrite CU by (cbn; first [tauto|discriminate]); unfold has_key; cbn; rewrite ?E1, ?E2, ?E3, ?E4, ?E5; reflexivity.
    + rewrite (C "ppopt" ltac:(cbn; tauto)). unfold choice, stated. cbn. rewrite Eop. 
      destruct (silent "ppopt" (a_ppopt (o_user o))) eqn:Es; cbn [negb]; [|reflexivity].
      (* options that say nothing were replaced by the default *)
      assert (Hd : a_ppopt (o_user o) = ppoption); [|rewrite Hd; reflexivity].
      destruct args as [|a args]; [discriminate|].
      assert (exists o0, looked_at ppoption o0 = Ok o) as (o0 & HL).
      { destruct a; cbn [opf_args] in Ho; repeat (apply bind_ok in Ho as (? & _ & Ho));
          try (destruct x; cbn beta iota in Ho; repeat (apply bind_ok in Ho as (? & _ & Ho))); eauto. }
      apply looked_roles in HL as (_ & HL). rewrite HL in Es |- *.
      destruct (silent "ppopt" (a_ppopt (o_user o0))) eqn:E0; [reflexivity|congruence].
    + rewrite CU by (cbn; first [tauto|discriminate]). cbn. unfold has_key.
      destruct (is_filled (a_lbu (o_user o))) eqn:EL.
      * rewrite (EA "A" _ ltac:(cbn; tauto)). reflexivity.
      * assert (HAn : a_Au (o_user o) = PNone) by (destruct (a_Au (o_user o)); try reflexivity; discriminate HA; discriminate).
        destruct (SA HAn eq_refl) as [S|S]; rewrite S, HAn; reflexivity.
    + rewrite CU by (cbn; first [tauto|discriminate]). cbn. unfold has_key.
      destruct (is_filled (a_Cw (o_user o))) eqn:EL.
      * rewrite (EN "N" _ ltac:(cbn; tauto)). reflexivity.
      * assert (HAn : a_N (o_user o) = PNone) by (destruct (a_N (o_user o)); try reflexivity; discriminate HN; discriminate).
        destruct (SN HAn eq_refl) as [S|S]; rewrite S, HAn; reflexivity.
  - intros HAn role Hr. cbn in Hr.
    pose proof (EA "A" _ ltac:(cbn; tauto)) as KA. pose proof (EA "l" _ ltac:(cbn; tauto)) as KL. pose proof (EA "u" _ ltac:(cbn; tauto)) as KU.
    rewrite (HA HAn) in KA, KL, KU.
    destruct Hr as [<-|[<-|[]]]; rewrite CU by (cbn; first [tauto|discriminate]); unfold has_key; cbn; rewrite KA; assumption.
  - intros HNn role Hr. cbn in Hr.
    pose proof (EN "N" _ ltac:(cbn; tauto)) as KA. pose proof (EN "Cw" _ ltac:(cbn; tauto)) as KL. pose proof (EN "H" _ ltac:(cbn; tauto)) as KU.
    rewrite (HN HNn) in KA, KL, KU.
    destruct Hr as [<-|[<-|[]]]; rewrite CU by (cbn; first [tauto|discriminate]); unfold has_key; cbn; rewrite ?KA, ?KU; assumption || reflexivity.
  - intros HNn. rewrite (HN HNn) in Ef, Efn. destruct (Efn eq_refl) as (n & Hn & Hfn).
    destruct (is_filled (a_fparm (o_user o))) eqn:EF; cbn [andb] in Ef.
    + left. rewrite CU by (cbn; first [tauto|discriminate]). unfold has_key. cbn. rewrite Ef. reflexivity.
    + assert (Hsil : silent "fparm" (a_fparm (o_user o)) = true).
      { apply not_filled_silent; [reflexivity| |exact EF]. rewrite EF. unfold filled, none_or_empty.
        destruct (is_none (a_fparm (o_user o))); [reflexivity|]. rewrite Hn. cbn. rewrite <- Hfn. reflexivity. }
      right. exists (a_fparm (o_user o)). unfold same_or_silent.
      rewrite CU by (cbn; first [tauto|discriminate]). unfold has_key. change (lead "fparm") with "fparm". rewrite Ef.
      destruct (start_silent args o "fparm" _ Ho ltac:(cbn; tauto) eq_refl ltac:(discriminate) eq_refl Hsil) as [S|(w & S & Sw)].
      * exists (nothing "fparm"). rewrite S. repeat split; first [assumption|reflexivity].
      * exists w. rewrite S. repeat split; assumption.
  - intros role Hr.
    assert (Hin : In role all_roles /\ lead role = role /\ role <> "ppopt" /\ existsb (String.eqb role) ["A"; "N"; "H"] = false /\
                  exists v, In (role, v) [("areas", o_areas o); ("z0", a_z0 (o_user o)); ("zl", a_zl (o_user o));
                                          ("zu", a_zu (o_user o)); ("userfcn", a_userfcn (o_user o))] /\ role_value o role = Some v).
    { cbn in Hr. destruct Hr as [<-|[<-|[<-|[<-|[<-|[]]]]]];
        (repeat split; [cbn; tauto|discriminate|eexists; split; [cbn; eauto 8|reflexivity]]). }
    destruct Hin as (Hin & Hlead & Hp & Hx & v & Hv & Hrv). destruct (EZ _ _ Hv) as (Hfv & Kv).
    destruct (is_filled v) eqn:EF.
    + left. rewrite (CU _ Hin Hp), Hlead. unfold has_key. rewrite Kv. congruence.
    + assert (Hsil : silent role v = true) by (apply not_filled_silent; [exact Hx|congruence|exact EF]).
      right. exists v. rewrite (CU _ Hin Hp), Hlead. unfold has_key. rewrite Kv.
      destruct (start_silent args o role v Ho Hin Hlead Hp Hrv Hsil) as [S|(w & S & Sw)]; rewrite S.
      * exists (nothing role). repeat split; try assumption. unfold nothing. rewrite Hx. unfold silent, empty_array. rewrite Hx. reflexivity.
      * exists w. repeat split; assumption.
Qed.

(** C106: a call without constraints, costs or variables of its own leaves the case of the caller as it was *)
Theorem C106_plain_call_partial d rest ppc op :
  (rest = [] \/ exists p, rest = [p]) ->
  (dget d "N" <> None -> dget d "H" <> None) ->
  opf_args2 ppoption loadcase (PDict d :: rest) = Ok (ppc, op) ->
  ppc = d.
Proof.
  intros Hrest HH H2. pose proof H2 as H2'. unfold opf_args2 in H2. apply bind_ok in H2 as (o & Ho & H2).
  assert (exists form, In form [["ppc"]; ["ppc"; "ppopt"]] /\ List.length (PDict d :: rest) = List.length form) as (form & Hf & Hl).
  { destruct Hrest as [->|(p & ->)]; [exists ["ppc"]|exists ["ppc"; "ppopt"]]; cbn; tauto. }
  pose proof (C104_case_forms ppoption loadcase form (PDict d :: rest) (PDict d) d o
                ltac:(cbn in Hf |- *; tauto) Hl eq_refl ltac:(right; eauto) (load_dict d) Ho) as C.
  assert (CU : forall role, In role all_roles -> role <> "ppopt" ->
            role_value o role = if has_key d (lead role) then dget d role else Some (nothing role)).
  { intros role Hr Hp. rewrite (C role Hr). unfold choice.
    assert (Hpe : (role =? "ppopt") = false) by (apply String.eqb_neq; exact Hp). rewrite Hpe.
    clear - Hr Hp Hf Hl. cbn in Hr, Hf. destruct Hf as [<-|[<-|[]]]; cbn in Hl;
    repeat (destruct rest as [|? rest]; cbn in Hl; try discriminate Hl);
    repeat (destruct Hr as [<-|Hr]; [first [reflexivity|contradiction]|]); destruct Hr. }
  clear C. destruct o as [ba bu ge br gc ar [Au lbu ubu ppopt N fparm H Cw z0 zl zu uf]].
  cbn [o_user o_baseMVA o_bus o_gen o_branch o_gencost o_areas] in *.
  assert (D : forall role v, In role ["baseMVA"; "bus"; "gen"; "branch"; "gencost"] ->
            role_value (OpfInput ba bu ge br gc ar (UserArgs Au lbu ubu ppopt N fparm H Cw z0 zl zu uf)) role = Some v ->
            dget d role = Some v).
  { pose proof (case_args_form ppoption loadcase) as _. intros role v Hr Hv.
    cbn [opf_args] in Ho. apply bind_ok in Ho as ((c & u) & Hc & Ho). apply bind_ok in Ho as (ppc' & Hload & Ho).
    apply bind_ok in Ho as (o0 & Ho0 & _).
    assert (Hc' : c = PDict d) by (destruct Hrest as [->|(p & ->)]; cbn in Hc; congruence). subst c.
    rewrite load_dict in Hload. injection Hload as <-. destruct u. unfold from_case in Ho0.
    assert (Hk : has_key d role = true).
    { apply bind_ok in Ho0 as (? & K1 & Ho0). apply bind_ok in Ho0 as (? & K2 & Ho0). apply bind_ok in Ho0 as (? & K3 & Ho0).
      apply bind_ok in Ho0 as (? & K4 & Ho0). apply bind_ok in Ho0 as (? & K5 & _).
      apply dkey_ok in K1, K2, K3, K4, K5. unfold has_key. clear - Hr K1 K2 K3 K4 K5. cbn in Hr.
      destruct Hr as [<-|[<-|[<-|[<-|[<-|[]]]]]]; rewrite ?K1, ?K2, ?K3, ?K4, ?K5; reflexivity. }
    assert (Hin : In role all_roles /\ role <> "ppopt" /\ lead role = role)
      by (clear - Hr; cbn in Hr; destruct Hr as [<-|[<-|[<-|[<-|[<-|[]]]]]]; (repeat split; [cbn; tauto|discriminate])).
    destruct Hin as (Hin & Hp & Hle). rewrite (CU _ Hin Hp), Hle, Hk in Hv. exact Hv. }
  rewrite (dset_same d "baseMVA" ba) in H2 by (apply D; [cbn; tauto|reflexivity]).
  rewrite (dset_same d "bus" bu) in H2 by (apply D; [cbn; tauto|reflexivity]).
  rewrite (dset_same d "gen" ge) in H2 by (apply D; [cbn; tauto|reflexivity]).
  rewrite (dset_same d "branch" br) in H2 by (apply D; [cbn; tauto|reflexivity]).
  rewrite (dset_same d "gencost" gc) in H2 by (apply D; [cbn; tauto|reflexivity]).
  clear D H2' Ho.
  pose proof (CU "areas" ltac:(cbn; tauto) ltac:(discriminate)) as Uar.
  pose proof (CU "A" ltac:(cbn; tauto) ltac:(discriminate)) as UA. pose proof (CU "l" ltac:(cbn; tauto) ltac:(discriminate)) as Ul.
  pose proof (CU "u" ltac:(cbn; tauto) ltac:(discriminate)) as Uu. pose proof (CU "N" ltac:(cbn; tauto) ltac:(discriminate)) as UN.
  pose proof (CU "Cw" ltac:(cbn; tauto) ltac:(discriminate)) as UC. pose proof (CU "H" ltac:(cbn; tauto) ltac:(discriminate)) as UH.
  pose proof (CU "fparm" ltac:(cbn; tauto) ltac:(discriminate)) as Uf. pose proof (CU "z0" ltac:(cbn; tauto) ltac:(discriminate)) as U0.
  pose proof (CU "zl" ltac:(cbn; tauto) ltac:(discriminate)) as U1. pose proof (CU "zu" ltac:(cbn; tauto) ltac:(discriminate)) as U2.
  pose proof (CU "userfcn" ltac:(cbn; tauto) ltac:(discriminate)) as U3. clear CU.
  cbn in Uar, UA, Ul, Uu, UN, UC, UH, Uf, U0, U1, U2, U3. unfold has_key in *.
  apply bind_ok in H2 as (b & Hb & H2).
  replace (if b then dset d "areas" ar else d) with d in H2.
  2:{ destruct b; [|reflexivity]. symmetry. apply dset_same. destruct (dget d "areas"); [congruence|].
      injection Uar as ->. discriminate Hb. }
  clear b Hb. apply bind_ok in H2 as (b & Hb & H2).
  replace (if b then dset (dset (dset d "A" Au) "l" lbu) "u" ubu else d) with d in H2.
  2:{ destruct b; [|reflexivity]. destruct (dget d "A") eqn:EA; [|injection Ul as ->; discriminate Hb].
      rewrite (dset_same d "A" Au) by congruence. rewrite (dset_same d "l" lbu) by congruence.
      symmetry. apply dset_same. congruence. }
  clear b Hb. apply bind_ok in H2 as (b & Hb & H2). apply bind_ok in H2 as (d1 & Hd1 & H2).
  assert (d1 = d).
  { destruct b; [|congruence]. destruct (dget d "N") eqn:EN; [|injection UC as ->; discriminate Hb].
    rewrite (dset_same d "N" N) in Hd1 by congruence. rewrite (dset_same d "Cw" Cw) in Hd1 by congruence.
    apply bind_ok in Hd1 as (n & Hn & Hd1).
    replace (if Nat.eqb n 0 then d else dset d "fparm" fparm) with d in Hd1.
    2:{ destruct (Nat.eqb n 0) eqn:En; [reflexivity|]. symmetry. apply dset_same.
        destruct (dget d "fparm"); [congruence|]. injection Uf as ->. injection Hn as <-. discriminate En. }
    destruct (dget d "H") eqn:EH; [|destruct (HH ltac:(congruence) eq_refl)].
    rewrite (dset_same d "H" H) in Hd1 by congruence. congruence. }
  subst d1. clear b Hb Hd1.
  apply bind_ok in H2 as (b & Hb & H2).
  replace (if b then dset d "z0" z0 else d) with d in H2.
  2:{ destruct b; [|reflexivity]. symmetry. apply dset_same. destruct (dget d "z0"); [congruence|]. injection U0 as ->. discriminate Hb. }
  clear b Hb. apply bind_ok in H2 as (b & Hb & H2).
  replace (if b then dset d "zl" zl else d) with d in H2.
  2:{ destruct b; [|reflexivity]. symmetry. apply dset_same. destruct (dget d "zl"); [congruence|]. injection U1 as ->. discriminate Hb. }
  clear b Hb. apply bind_ok in H2 as (b & Hb & H2).
  replace (if b then dset d "zu" zu else d) with d in H2.
  2:{ destruct b; [|reflexivity]. symmetry. apply dset_same. destruct (dget d "zu"); [congruence|]. injection U2 as ->. discriminate Hb. }
  clear b Hb. apply bind_ok in H2 as (b & Hb & H2). injection H2 as <- _.
  destruct b; [|reflexivity]. apply dset_same. destruct (dget d "userfcn"); [congruence|]. injection U3 as ->. discriminate Hb.
Qed.

(** C107: a file name stands for the case in the file, as far as the arguments go *)
Theorem C107_file_name_partial s d rest :
  loadcase (PStr s) = Ok d ->
  opf_args ppoption loadcase (PStr s :: rest) = opf_args ppoption loadcase (PDict d :: rest).
Proof.
  intros Hs. unfold opf_args.
  do 13 (destruct rest as [|? rest]; [cbn [case_args bind]; rewrite ?Hs, ?load_dict; reflexivity|]). reflexivity.
Qed.

(** calls are accepted when the case has its fields and what the call gives has a length *)
Theorem C104_accepted form args c case :
  In form case_forms -> List.length args = List.length form ->
  nth_error args 0 = Some c -> (exists s, c = PStr s) \/ (exists d, c = PDict d) -> loadcase c = Ok case ->
  (forall k, In k ["baseMVA"; "bus"; "gen"; "branch"; "gencost"] -> dget case k <> None) ->
  (dget case "A" <> None -> dget case "l" <> None /\ dget case "u" <> None) ->
  dget case "N" = None -> (forall v, given form args "N" = Some v -> v = PNone) ->
  (forall k v, In k ["ppopt"; "userfcn"; "fparm"; "z0"; "zl"; "zu"] -> given form args k = Some v -> exists b, none_or_empty v = Ok b) ->
  (exists b, none_or_empty ppoption = Ok b) ->
  exists o, opf_args ppoption loadcase args = Ok o.
Proof.
  intros Hf Hl Hc Hk Hload HD HA HN HNg HE (bp & HP).
  assert (Hopf : opf_args ppoption loadcase args =
                 ('(casefile, u) <- case_args ppoption args ;; ppc <- loadcase casefile ;; o <- from_case ppc u ;;
                  looked_at ppoption o)).
  { destruct args as [|a args]; [discriminate|]. cbn in Hc. injection Hc as ->.
    destruct Hk as [(s & ->)|(d & ->)]; reflexivity. }
  assert (HU : exists u, case_args ppoption args = Ok (c, u)).
  { clear - Hf Hl Hc. cbn in Hf. destruct Hf as [<-|[<-|[<-|[<-|[<-|[<-|[<-|[]]]]]]]]; cbn in Hl;
    repeat (destruct args as [|? args]; cbn in Hl; try discriminate Hl); injection Hc as ->; eexists; reflexivity. }
  destruct HU as (u & HU). rewrite Hopf, HU. cbn [bind]. rewrite Hload. cbn [bind].
  destruct (case_args_roles ppoption form args c u Hf Hl HU) as (_ & HR). clear Hopf.
  destruct u as [Au lbu ubu ppopt N fparm H Cw z0 zl zu uf].
  assert (HE' : forall k v, In k ["ppopt"; "userfcn"; "fparm"; "z0"; "zl"; "zu"] ->
            user_value (UserArgs Au lbu ubu ppopt N fparm H Cw z0 zl zu uf) k = Some v -> exists b, none_or_empty v = Ok b).
  { intros k v Hk' Hv. rewrite HR in Hv by (clear - Hk'; cbn in Hk' |- *; tauto). injection Hv as <-.
    destruct (given form args k) as [w|] eqn:Eg; [exact (HE k w Hk' Eg)|].
    destruct (k =? "ppopt"); [eauto|]. unfold nothing. destruct (existsb _ _); eexists; reflexivity. }
  assert (HNn : N = PNone).
  { pose proof (HR "N" ltac:(cbn; tauto)) as U. cbn in U. injection U as ->.
    destruct (given form args "N") eqn:Eg; [exact (HNg _ eq_refl)|reflexivity]. }
  subst N. unfold from_case.
  assert (HK : forall k, dget case k <> None -> exists v, dkey case k = Ok v).
  { intros k Hk'. unfold dkey, of_option. destruct (dget case k); [eauto|contradiction]. }
  destruct (HK "baseMVA" (HD "baseMVA" ltac:(cbn; tauto))) as (v1 & ->). destruct (HK "bus" (HD "bus" ltac:(cbn; tauto))) as (v2 & ->).
  destruct (HK "gen" (HD "gen" ltac:(cbn; tauto))) as (v3 & ->). destruct (HK "branch" (HD "branch" ltac:(cbn; tauto))) as (v4 & ->).
  destruct (HK "gencost" (HD "gencost" ltac:(cbn; tauto))) as (v5 & ->). cbn [bind].
  assert (HA' : exists x, (if is_none Au && has_key case "A"
                      then (a <- dkey case "A" ;; l <- dkey case "l" ;; u <- dkey case "u" ;; Ok (a, l, u))
                      else Ok (Au, lbu, ubu)) = Ok x).
  { destruct (is_none Au && has_key case "A") eqn:E; [|eauto]. apply andb_true_iff in E as (_ & E).
    assert (dget case "A" <> None) as EA by (unfold has_key in E; destruct (dget case "A"); discriminate).
    destruct (HA EA) as (El & Eu). destruct (HK _ EA) as (? & ->). destruct (HK _ El) as (? & ->). destruct (HK _ Eu) as (? & ->).
    cbn. eauto. }
  destruct HA' as (((a & l) & u) & ->). cbn [bind].
  assert (HNk : has_key case "N" = false) by (unfold has_key; rewrite HN; reflexivity).
  rewrite HNk. cbn [is_none andb bind].
  destruct (HE' "fparm" fparm ltac:(cbn; tauto) eq_refl) as (b1 & ->). destruct (HE' "z0" z0 ltac:(cbn; tauto) eq_refl) as (b2 & ->).
  destruct (HE' "zl" zl ltac:(cbn; tauto) eq_refl) as (b3 & ->). destruct (HE' "zu" zu ltac:(cbn; tauto) eq_refl) as (b4 & ->).
  destruct (HE' "userfcn" uf ltac:(cbn; tauto) eq_refl) as (b5 & ->). cbn [bind].
  unfold looked_at. cbn [o_user is_none bind Nat.eqb].
  destruct (HE' "ppopt" ppopt ltac:(cbn; tauto) eq_refl) as (b6 & ->). cbn [bind]. eauto.
Qed.
End Problem.

(** a case of three buses, and the calls on it *)
Definition ex_opts : val := PDict [("VERBOSE", PNum 1)].
Definition ex_case : list (string * val) :=
  [("version", PStr "2"); ("baseMVA", PNum 100); ("bus", PDense 1 3 13); ("gen", PDense 2 2 21); ("branch", PDense 3 3 13);
   ("gencost", PDense 4 2 6)].
Definition ex_load (v : val) : result (list (string * val)) :=
  match v with PDict d => Ok d | PStr _ => Ok (dset ex_case "reserves" (PDict [("zones", PDense 5 1 2)])) | _ => Err OutOfModel end.

Example C104_example :
  opf_args ex_opts ex_load [PDict ex_case; PSparse 7 2 10; PVec 8 2; PVec 9 2; PDict [("PF_DC", PNum 1)]; PSparse 10 1 10;
                            PDense 11 1 4; PSparse 12 1 1; PVec 13 1] =
  Ok (OpfInput (PNum 100) (PDense 1 3 13) (PDense 2 2 21) (PDense 3 3 13) (PDense 4 2 6) empty_array
       (UserArgs (PSparse 7 2 10) (PVec 8 2) (PVec 9 2) (PDict [("PF_DC", PNum 1)]) (PSparse 10 1 10) (PDense 11 1 4)
                 (PSparse 12 1 1) (PVec 13 1) empty_array empty_array empty_array empty_array)) /\
  opf_args ex_opts ex_load [PNum 100; PDense 1 3 13; PDense 2 2 21; PDense 3 3 13; PNone; PDense 4 2 6; PDict []] =
  Ok (OpfInput (PNum 100) (PDense 1 3 13) (PDense 2 2 21) (PDense 3 3 13) (PDense 4 2 6) PNone
       (UserArgs PNone empty_array empty_array ex_opts PNone empty_array PNone empty_array empty_array empty_array empty_array
                 empty_array)) /\
  opf_args ex_opts ex_load [PDict ex_case; PNone; PNone; PNone; PNone; PNone] = Err UnboundLocalError.
Proof. vm_compute. repeat split. Qed.

(** C105: constraints with upper bounds only, and costs with a quadratic part only, are left out *)
Definition ex_upper : list val := [PDict ex_case; PSparse 7 2 10; empty_array; PVec 9 2].
Definition ex_quadratic : list val :=
  [PDict ex_case; PNone; empty_array; empty_array; ex_opts; PSparse 10 1 10; empty_array; PSparse 12 1 1; empty_array].
Theorem C105_reaches_refuted : exists args o ppc op o',
  opf_args ex_opts ex_load args = Ok o /\ opf_args2 ex_opts ex_load args = Ok (ppc, op) /\
  opf_args ex_opts ex_load [PDict ppc; op] = Ok o' /\ a_Au (o_user o) = PSparse 7 2 10 /\ a_Au (o_user o') = PNone /\
  ~ same_problem o o'.
Proof.
  exists ex_upper. do 4 eexists. repeat apply conj; [vm_compute; reflexivity ..|].
  intros S. pose proof (sp_data _ _ S "A" ltac:(cbn; tauto)) as E. discriminate E.
Qed.
Theorem C105_costs_refuted : exists args o ppc op o',
  opf_args ex_opts ex_load args = Ok o /\ opf_args2 ex_opts ex_load args = Ok (ppc, op) /\
  opf_args ex_opts ex_load [PDict ppc; op] = Ok o' /\ a_N (o_user o) = PSparse 10 1 10 /\ a_N (o_user o') = PNone /\
  ~ same_problem o o'.
Proof.
  exists ex_quadratic. do 4 eexists. repeat apply conj; [vm_compute; reflexivity ..|].
  intros S. pose proof (sp_data _ _ S "N" ltac:(cbn; tauto)) as E. discriminate E.
Qed.

(** C105_reaches_partial applies to a call with constraints and costs *)
Example C105_example : exists o ppc op o',
  let args := [PDict ex_case; PSparse 7 2 10; PVec 8 2; PVec 9 2; ex_opts; PSparse 10 1 10; empty_array; PSparse 12 1 1; PVec 13 1] in
  opf_args ex_opts ex_load args = Ok o /\ opf_args2 ex_opts ex_load args = Ok (ppc, op) /\
  opf_args ex_opts ex_load [PDict ppc; op] = Ok o' /\
  is_filled (a_lbu (o_user o)) = true /\ is_filled (a_Cw (o_user o)) = true /\
  a_Au (o_user o') = PSparse 7 2 10 /\ a_H (o_user o') = PSparse 12 1 1.
Proof. do 4 eexists. cbv zeta. repeat apply conj; vm_compute; reflexivity. Qed.

(** C106: the constraints of one call are in force in the next call with the same case *)
Theorem C106_leftover_refuted : exists d A l u ppc op o o',
  opf_args2 ex_opts ex_load [PDict d; A; l; u] = Ok (ppc, op) /\
  opf_args ex_opts ex_load [PDict d] = Ok o /\ a_Au (o_user o) = PNone /\
  opf_args ex_opts ex_load [PDict ppc] = Ok o' /\ a_Au (o_user o') = A /\ A <> PNone.
Proof.
  exists ex_case, (PSparse 7 2 10), (PVec 8 2), (PVec 9 2). do 4 eexists.
  repeat apply conj; [vm_compute; reflexivity ..|discriminate].
Qed.
Example C106_example :
  opf_args2 ex_opts ex_load [PDict ex_case; ex_opts] = Ok (ex_case, ex_opts) /\
  opf_args2 ex_opts ex_load [PDict (ex_case ++ [("N", PSparse 10 1 10); ("Cw", PVec 13 1); ("H", PSparse 12 1 1)])] =
    Ok (ex_case ++ [("N", PSparse 10 1 10); ("Cw", PVec 13 1); ("H", PSparse 12 1 1)], ex_opts)%list.
Proof. vm_compute. split; reflexivity. Qed.

(** C107: the zones of the reserves are in the file, yet missing from the problem *)
Theorem C107_file_name_refuted : exists s d ppc op ppc' op',
  ex_load (PStr s) = Ok d /\
  opf_args2 ex_opts ex_load [PStr s] = Ok (ppc, op) /\ opf_args2 ex_opts ex_load [PDict d] = Ok (ppc', op') /\
  dget ppc' "reserves" = dget d "reserves" /\ dget d "reserves" <> None /\ dget ppc "reserves" = None.
Proof.
  exists "case3". do 5 eexists. repeat apply conj; [vm_compute; reflexivity ..|vm_compute; discriminate|vm_compute; reflexivity].
Qed.

Print Assumptions C104_case_forms.
Print Assumptions C104_matrix_forms.
Print Assumptions C104_other_counts.
Print Assumptions C104_accepted.
Print Assumptions C105_reaches_partial.
Print Assumptions C105_reaches_refuted.
Print Assumptions C105_costs_refuted.
Print Assumptions C106_plain_call_partial.
Print Assumptions C106_leftover_refuted.
Print Assumptions C107_file_name_partial.
Print Assumptions C107_file_name_refuted.
