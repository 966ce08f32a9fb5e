(** * IRTerm: the optimisation pass terminates, whatever the driver chooses. *)
From Coq Require Import QArith.
From Verif Require Import Base Spec Padding Threshold IR IRProofs IRRules IRSound.
Open Scope nat_scope.

Definition isc (D : nat -> option (op * list nat)) (x : nat) : bool :=
  match D x with Some (OConst _, _) => true | _ => false end.
(** Weight of an operation. *)
Definition base (D : nat -> option (op * list nat)) (o : op) (a : list nat) : nat :=
  match o with
  | OConst _ | ONone | OOther _ => 0
  | ODequant | OAct _ | OBMaxPool _ | OConv _ => 1
  | OQuant | OMaxPool _ _ => 2
  | OBin _ _ => if forallb (isc D) a then 1 else 3
  | OGe => 4
  | OLe => 5
  end.
Definition wt (p : list instr) (outs : list nat) (i : instr) : nat :=
  match uses p outs (iid i) with O => 0 | _ => base (def p) (iop i) (iargs i) end.
Definition total (f : instr -> nat) (l : list instr) : nat := fold_right (fun i n => f i + n) 0 l.
Definition weight (p : list instr) (outs : list nat) : nat := total (wt p outs) p.
Definition potential (p : list instr) (outs : list nat) : nat := 7 * weight p outs + length p.

Lemma total_app f a b : total f (a ++ b) = total f a + total f b.
Proof. induction a as [|x a IH]; [reflexivity|]. cbn [app total fold_right]. fold (total f (a ++ b)). fold (total f a). rewrite IH. lia. Qed.
Lemma total_le f g l : (forall i, In i l -> f i <= g i) -> total f l <= total g l.
Proof.
  induction l as [|x l IH]; intros H; [reflexivity|]. cbn [total fold_right]. fold (total f l). fold (total g l).
  assert (f x <= g x) by (apply H; left; reflexivity). assert (total f l <= total g l) by (apply IH; intros; apply H; right; assumption). lia.
Qed.
Lemma base_le D D' o a : (forall x, In x a -> isc D x = true -> isc D' x = true) -> base D' o a <= base D o a.
Proof.
  intros H. destruct o; cbn; try lia. destruct (forallb (isc D) a) eqn:E; [|destruct (forallb (isc D') a); lia].
  assert (E' : forallb (isc D') a = true).
  { apply forallb_forall. intros x Hx. apply H; [exact Hx|]. rewrite forallb_forall in E. apply E, Hx. }
  rewrite E'. lia.
Qed.
Lemma base_5 D o a : base D o a <= 5.
Proof. destruct o; cbn; try lia. destruct (forallb _ _); lia. Qed.
Lemma wt_base p outs i : wt p outs i <= base (def p) (iop i) (iargs i).
Proof. unfold wt. destruct (uses p outs (iid i)); lia. Qed.
Lemma weight_bound p outs : weight p outs <= 5 * length p.
Proof.
  unfold weight. assert (H : forall l, total (wt p outs) l <= 5 * length l); [|apply H].
  induction l as [|i l IH]; [cbn; lia|]. cbn [total fold_right length]. fold (total (wt p outs) l).
  assert (A := wt_base p outs i). assert (B := base_5 (def p) (iop i) (iargs i)). lia.
Qed.

(** Definitions and uses. *)
Lemma def_app_notin p q x : ~ In x (map iid p) -> def (p ++ q) x = def q x.
Proof.
  unfold def. induction p as [|i p IH]; intros H; [reflexivity|]. cbn [app find].
  destruct (Nat.eqb_spec (iid i) x) as [E|_]; [exfalso; apply H; left; exact E|]. apply IH. intros C. apply H. right. exact C.
Qed.
Lemma def_app_in p q x : In x (map iid p) -> def (p ++ q) x = def p x.
Proof.
  unfold def. induction p as [|i p IH]; intros H; [contradiction|]. cbn [app find].
  destruct (Nat.eqb_spec (iid i) x) as [E|N]; [reflexivity|]. apply IH. destruct H as [H|H]; [contradiction|exact H].
Qed.
Lemma def_split p x o a : def p x = Some (o, a) -> exists A B, p = A ++ (x, o, a) :: B /\ ~ In x (map iid A).
Proof.
  unfold def. induction p as [|[[r q] b] p IH]; [discriminate|]. cbn [find iid fst].
  destruct (Nat.eqb_spec r x) as [->|N].
  - cbn. intros H. injection H as <- <-. exists [], p. split; [reflexivity|intros []].
  - intros H. destruct (IH H) as (A & B & -> & HA). exists ((r, q, b) :: A), B. split; [reflexivity|].
    intros [C|C]; [apply N, C|apply HA, C].
Qed.
Lemma def_scope S p x o a : ssa S p -> def p x = Some (o, a) ->
  In x (map iid p) /\ forall y, In y a -> In y (rev (map iid p) ++ S) /\ y <> x.
Proof.
  intros HS HD. destruct (def_split _ _ _ _ HD) as (A & B & -> & HA).
  apply ssa_app in HS. destruct HS as [H1 (H2 & H3 & _)]. rewrite map_app. cbn [map iid fst]. split; [apply in_or_app; right; left; reflexivity|].
  intros y Hy. specialize (H2 y Hy). split; [|congruence]. rewrite rev_app_distr. apply in_app_or in H2.
  rewrite !in_app_iff. tauto.
Qed.
Lemma uses_app p q outs x : uses (p ++ q) outs x = uses p [] x + uses q outs x.
Proof. induction p as [|i p IH]; [reflexivity|]. cbn [app uses]. rewrite IH. lia. Qed.
Lemma cnt_pos x l : In x l -> 0 < cnt x l.
Proof. intros H. apply (count_occ_In Nat.eq_dec). exact H. Qed.
Lemma cnt_zero x l : ~ In x l -> cnt x l = 0.
Proof. intros H. apply (count_occ_not_In Nat.eq_dec). exact H. Qed.
Lemma uses_in p x i : In i p -> In x (iargs i) -> 0 < uses p [] x.
Proof.
  intros Hi Hx. induction p as [|j p IH]; [contradiction|]. cbn [uses]. destruct Hi as [->|Hi].
  - assert (H := cnt_pos _ _ Hx). lia.
  - specialize (IH Hi). lia.
Qed.
Lemma uses_notin p x : (forall i, In i p -> ~ In x (iargs i)) -> uses p [] x = 0.
Proof.
  induction p as [|j p IH]; intros H; [reflexivity|]. cbn [uses]. rewrite (cnt_zero x) by (apply H; left; reflexivity).
  rewrite IH; [reflexivity|]. intros i Hi. apply H. right. exact Hi.
Qed.

Ltac absurd1 := first [contradiction | match goal with H : ~ (_ \/ _) |- _ => exfalso; apply H; solve [auto 10] end].
Ltac scope_ok := cbn [ssa In]; repeat apply conj; try exact I; try assumption;
    let q := fresh in intros q;
    first [let h := fresh in intros h; repeat (match type of h with _ \/ _ => destruct h as [h|h] end); [..|contradiction]; subst; solve [auto 10]
          | contradiction
          | repeat (match type of q with _ \/ _ => destruct q as [q|q] end); try contradiction; subst; absurd1].

(** What a rule does, syntactically. *)
Lemma rule_syn G arm S pre o a inner news o' a' :
  ssa S pre -> rule G arm (def pre) (o, a) inner news (o', a') ->
  NoDup (map iid news) -> (forall x, In x (map iid news) -> ~ In x (rev (map iid pre) ++ S)) ->
  ssa (rev (map iid pre) ++ S) news /\ (forall x, In x a' -> In x (rev (map iid news) ++ rev (map iid pre) ++ S)) /\
  In inner a /\ length news <= 6 /\ isc (fun _ => Some (o, a)) 0 = false /\ isc (fun _ => Some (o', a')) 0 = false /\
  exists io ia, def pre inner = Some (io, ia) /\
    (forall y, In y a' -> In y (map iid news) \/ In y ia) /\
    (forall i y, In i news -> In y (iargs i) -> In y (map iid news) \/ In y ia) /\
    (forall D D', (forall x, In x (map iid pre) -> D x = def pre x) ->
       (forall x, In x (map iid news) -> D' x = def news x) ->
       total (fun i => base D' (iop i) (iargs i)) news + base D' o' a' < base D io ia + base D o a).
Proof.
  intros HS R ND NF. set (SC := rev (map iid pre) ++ S) in *. inversion R; subst; clear R;
  (match goal with H : def pre inner = Some (?io, ?ia) |- _ =>
    destruct (def_scope S pre inner io ia HS H) as [In1 A1]; pose proof H as HDef end).
  - (* ge zero *)
    split; [exact I|]. split; [intros y [<-|[]]; apply A1; left; reflexivity|]. split; [left; reflexivity|]. split; [cbn; lia|].
    split; [reflexivity|]. split; [reflexivity|]. exists OGe, [x; c]. split; [exact HDef|].
    split; [intros y [<-|[]]; right; left; reflexivity|]. split; [intros i y []|]. intros D D' HD HD'. cbn. lia.
  - assert (N1 : ~ In f1 SC) by (apply NF; left; reflexivity).
    split; [split; [intros y [<-|[<-|[]]]; apply A1; cbn; auto|split; [exact N1|exact I]]|].
    split; [intros y [<-|[]]; left; reflexivity|]. split; [left; reflexivity|]. split; [cbn; lia|].
    split; [reflexivity|]. split; [reflexivity|]. exists OGe, [x; c]. split; [exact HDef|].
    split; [intros y [<-|[]]; left; left; reflexivity|]. split; [intros i y [<-|[]] Hy; right; exact Hy|].
    intros D D' HD HD'. cbn. destruct (isc D' x && (isc D' c && true)); lia.
  - assert (N1 : ~ In f1 SC) by (apply NF; left; reflexivity).
    split; [split; [intros y [<-|[<-|[]]]; apply A1; cbn; auto|split; [exact N1|exact I]]|].
    split; [intros y [<-|[]]; left; reflexivity|]. split; [left; reflexivity|]. split; [cbn; lia|].
    split; [reflexivity|]. split; [reflexivity|]. exists OLe, [l; r]. split; [exact HDef|].
    split; [intros y [<-|[]]; left; left; reflexivity|].
    split; [intros i y [<-|[]] Hy; right; cbn in *; tauto|]. intros D D' HD HD'. cbn. lia.
  - assert (N1 : ~ In f1 SC) by (apply NF; cbn; auto). assert (N2 : ~ In f2 SC) by (apply NF; cbn; auto).
    assert (N3 : ~ In f3 SC) by (apply NF; cbn; auto).
    pose proof ND as ND0. cbn [map iid fst] in ND. inversion ND as [|? ? ND1 ND']; subst. inversion ND' as [|? ? ND2 ND'']; subst. cbn [In] in ND1, ND2.
    assert (Ii : In i SC) by (apply A1; cbn; auto). assert (If : In f SC) by (apply A1; cbn; auto).
    assert (Im : In m SC) by (apply A1; cbn; auto). assert (It : In t SC) by (apply A1; cbn; auto 6).
    split; [scope_ok|]. split; [cbn [map iid fst rev app In]; intros q [<-|[<-|[<-|[<-|[<-|[]]]]]]; auto 8|].
    split; [left; reflexivity|]. split; [cbn; lia|]. split; [reflexivity|]. split; [reflexivity|].
    eexists. eexists. split; [exact HDef|]. split; [cbn; intros q [<-|[<-|[<-|[<-|[<-|[]]]]]]; auto 9|].
    split; [cbn; intros j y [<-|[<-|[<-|[]]]]; cbn; tauto|].
    intros D D' HD HD'. cbn [total fold_right iop iargs fst snd base].
    assert (C0 : isc D inner = false) by (unfold isc; rewrite HD, HDef by exact In1; reflexivity).
    assert (C1 : isc D' f1 = true).
    { unfold isc. rewrite HD' by (cbn; auto). unfold def. cbn [find iid fst]. rewrite Nat.eqb_refl. reflexivity. }
    assert (C2 : isc D' f2 = true).
    { unfold isc. rewrite HD' by (cbn; auto). unfold def. cbn [find iid fst].
      destruct (Nat.eqb_spec f1 f2); [reflexivity|]. rewrite Nat.eqb_refl. reflexivity. }
    cbn [forallb]. rewrite C0, C1, C2. cbn. lia.
  - assert (N1 : ~ In f1 SC) by (apply NF; cbn; auto). assert (N2 : ~ In f2 SC) by (apply NF; cbn; auto).
    assert (N3 : ~ In f3 SC) by (apply NF; cbn; auto). assert (N4 : ~ In f4 SC) by (apply NF; cbn; auto).
    assert (N5 : ~ In f5 SC) by (apply NF; cbn; auto 8). assert (N6 : ~ In f6 SC) by (apply NF; cbn; auto 8).
    pose proof ND as ND0. cbn [map iid fst] in ND. inversion ND as [|? ? ND1 ND']; subst. inversion ND' as [|? ? ND2 ND'']; subst.
    inversion ND'' as [|? ? ND3 ND3']; subst. inversion ND3' as [|? ? ND4 ND4']; subst. inversion ND4' as [|? ? ND5 ND5']; subst.
    cbn [In] in ND1, ND2, ND3, ND4, ND5.
    assert (Ii : In i SC) by (apply A1; cbn; auto). assert (If : In f SC) by (apply A1; cbn; auto).
    assert (It : In t SC) by (apply A1; cbn; auto 6).
    split; [scope_ok|]. split; [cbn [map iid fst rev app In]; intros q [<-|[<-|[<-|[<-|[<-|[]]]]]]; auto 10|].
    split; [left; reflexivity|]. split; [cbn; lia|]. split; [reflexivity|]. split; [reflexivity|].
    eexists. eexists. split; [exact HDef|]. split; [cbn; intros q [<-|[<-|[<-|[<-|[<-|[]]]]]]; auto 12|].
    split; [cbn; intros j y [<-|[<-|[<-|[<-|[<-|[<-|[]]]]]]]; cbn; intros HH; repeat (destruct HH as [HH|HH]; [subst; auto 12|]); contradiction|].
    intros D D' HD HD'. cbn [total fold_right iop iargs fst snd base].
    assert (C0 : isc D inner = false) by (unfold isc; rewrite HD, HDef by exact In1; reflexivity).
    assert (CC : forall y, y = f1 \/ y = f2 \/ y = f4 \/ y = f5 -> isc D' y = true).
    { intros y Hy. unfold isc. rewrite HD' by (cbn; destruct Hy as [->|[->|[->| ->]]]; auto 8). unfold def. cbn [find iid fst].
      destruct (Nat.eqb_spec f1 y); [reflexivity|]. destruct (Nat.eqb_spec f2 y); [reflexivity|].
      destruct (Nat.eqb_spec f3 y) as [E|]; [exfalso; subst y; destruct Hy as [?|[?|[?|?]]]; subst; absurd1|].
      destruct (Nat.eqb_spec f4 y); [reflexivity|]. destruct (Nat.eqb_spec f5 y); [reflexivity|]. exfalso; destruct Hy as [?|[?|[?|?]]]; congruence. }
    cbn [forallb]. rewrite C0, !CC by auto. cbn. lia.
  - assert (N1 : ~ In f1 SC) by (apply NF; cbn; auto). assert (N2 : ~ In f2 SC) by (apply NF; cbn; auto).
    pose proof ND as ND0. cbn [map iid fst] in ND. inversion ND as [|? ? ND1 ND']; subst. cbn [In] in ND1.
    assert (Ii : In i SC) by (apply A1; cbn; auto). assert (If : In f SC) by (apply A1; cbn; auto).
    assert (It : In t SC) by (apply A1; cbn; auto 6).
    split; [scope_ok|]. split; [cbn [map iid fst rev app In]; intros q [<-|[<-|[<-|[<-|[<-|[]]]]]]; auto 10|].
    split; [left; reflexivity|]. split; [cbn; lia|]. split; [reflexivity|]. split; [reflexivity|].
    eexists. eexists. split; [exact HDef|]. split; [cbn; intros q [<-|[<-|[<-|[<-|[<-|[]]]]]]; auto 12|].
    split; [cbn; intros j y [<-|[<-|[]]] []|]. intros D D' HD HD'. cbn. lia.
  - assert (N1 : ~ In f1 SC) by (apply NF; left; reflexivity).
    split; [split; [intros y [<-|[]]; apply A1; cbn; auto|split; [exact N1|exact I]]|].
    split; [intros y [<-|[]]; left; reflexivity|]. split; [left; reflexivity|]. split; [cbn; lia|].
    split; [reflexivity|]. split; [reflexivity|]. eexists. eexists. split; [exact HDef|].
    split; [intros y [<-|[]]; left; left; reflexivity|].
    split; [intros i y [<-|[]] Hy; right; cbn in *; tauto|]. intros D D' HD HD'. cbn. lia.
  - assert (N1 : ~ In f1 SC) by (apply NF; cbn; auto). assert (N2 : ~ In f2 SC) by (apply NF; cbn; auto).
    assert (N3 : ~ In f3 SC) by (apply NF; cbn; auto). assert (N4 : ~ In f4 SC) by (apply NF; cbn; auto).
    assert (N5 : ~ In f5 SC) by (apply NF; cbn; auto 8). assert (N6 : ~ In f6 SC) by (apply NF; cbn; auto 8).
    pose proof ND as ND0. cbn [map iid fst] in ND. inversion ND as [|? ? ND1 ND']; subst. inversion ND' as [|? ? ND2 ND'']; subst.
    inversion ND'' as [|? ? ND3 ND3']; subst. inversion ND3' as [|? ? ND4 ND4']; subst. inversion ND4' as [|? ? ND5 ND5']; subst.
    cbn [In] in ND1, ND2, ND3, ND4, ND5.
    assert (Ii : In i SC) by (apply A1; cbn; auto).
    split; [scope_ok|]. split; [cbn [map iid fst rev app In]; intros q [<-|[<-|[<-|[<-|[<-|[]]]]]]; auto 10|].
    split; [left; reflexivity|]. split; [cbn; lia|]. split; [reflexivity|]. split; [reflexivity|].
    eexists. eexists. split; [exact HDef|]. split; [cbn; intros q [<-|[<-|[<-|[<-|[<-|[]]]]]]; auto 12|].
    split; [cbn; intros j y [<-|[<-|[<-|[<-|[<-|[<-|[]]]]]]]; cbn; intros HH; repeat (destruct HH as [HH|HH]; [subst; auto 12|]); contradiction|].
    intros D D' HD HD'. cbn [total fold_right iop iargs fst snd base].
    assert (CC : forall y, y = f1 \/ y = f2 -> isc D' y = true).
    { intros y Hy. unfold isc. rewrite HD' by (cbn; destruct Hy as [->| ->]; auto 8). unfold def. cbn [find iid fst].
      destruct (Nat.eqb_spec f1 y); [reflexivity|]. destruct (Nat.eqb_spec f2 y); [reflexivity|]. exfalso; destruct Hy as [?|?]; congruence. }
    cbn [forallb]. rewrite !CC by auto. cbn. lia.
Qed.

(** Comparing a program with its rewriting, operation by operation. *)
Lemma wt_le p q outs i :
  (uses q outs (iid i) <> 0 -> uses p outs (iid i) <> 0) ->
  (forall x, In x (iargs i) -> isc (def p) x = true -> isc (def q) x = true) ->
  wt q outs i <= wt p outs i.
Proof.
  intros HU HI. unfold wt. destruct (uses q outs (iid i)) eqn:E; [lia|].
  destruct (uses p outs (iid i)) eqn:E'; [exfalso; apply HU; [congruence|reflexivity]|]. apply base_le. exact HI.
Qed.

Lemma args_scope S p : ssa S p -> forall i x, In i p -> In x (iargs i) -> In x (rev (map iid p) ++ S).
Proof.
  revert S. induction p as [|[[r o] a] p IH]; intros S HS i x Hi Hx; [contradiction|]. destruct HS as (Ha & Hr & HS).
  cbn [map rev iid fst]. rewrite <- app_assoc. destruct Hi as [<-|Hi].
  - apply in_or_app. right. right. apply Ha, Hx.
  - apply (IH _ HS i x Hi Hx).
Qed.

Lemma NoDup_ids S p : ssa S p -> NoDup (map iid p).
Proof.
  revert S. induction p as [|[[r o] a] p IH]; intros S HS; [constructor|]. destruct HS as (_ & _ & HS). cbn [map iid fst].
  constructor; [|apply (IH _ HS)]. intros C. apply (ssa_notin _ _ HS r C). left. reflexivity.
Qed.

Theorem step_down G arm S outs p q : ssa S p -> step G arm S outs p q ->
  ssa S q /\ potential q outs < potential p outs.
Proof.
  intros HSp Hst. inversion Hst as [pre r o a post inner news o' a' R U1 U0 ND NF E1 E2
    | pre r o a post vs v Fo HC HD U0 E1 E2 | pre i post U0 E1 E2]; subst.
  - pose proof HSp as HS. apply ssa_app in HS. destruct HS as [HS1 HS2]. set (SC := rev (map iid pre) ++ S) in *.
    cbn [ssa] in HS2. destruct HS2 as (Ha & Hr & HS3).
    assert (NF' : forall x, In x (map iid news) -> ~ In x SC /\ x <> r /\ ~ In x (map iid post)).
    { intros x Hx. destruct (NF x Hx) as [NF1 NF2]. rewrite map_app in NF2. cbn [map] in NF2. split; [|split].
      - intros C. apply in_app_or in C. destruct C as [C|C]; [|contradiction]. apply NF2, in_or_app. left. apply in_rev, C.
      - intros ->. apply NF2, in_or_app. right. left. reflexivity.
      - intros C. apply NF2, in_or_app. right. right. exact C. }
    destruct (rule_syn G arm S pre o a inner news o' a' HS1 R ND) as
      (SN & SA & Hin & Hlen & Hc & Hc' & io & ia & HDef & Harg & Hargs & Hw).
    { intros x Hx. apply (NF' x Hx). }
    assert (HSq : ssa S (pre ++ news ++ (r, o', a') :: post)).
    { apply ssa_app. split; [exact HS1|]. fold SC. apply ssa_app. split; [exact SN|]. split; [exact SA|]. split.
      - intros C. apply in_app_or in C. destruct C as [C|C]; [|contradiction]. apply in_rev in C. destruct (NF' r C) as (_ & C2 & _). congruence.
      - apply (ssa_weaken post _ _ HS3).
        + intros i x _ _ [->|Hx]; [left; reflexivity|right; apply in_or_app; right; exact Hx].
        + intros x Hx [->|C]; [apply (ssa_notin _ _ HS3 x Hx); left; reflexivity|]. apply in_app_or in C. destruct C as [C|C].
          * apply in_rev in C. destruct (NF' x C) as (_ & _ & C3). contradiction.
          * apply (ssa_notin _ _ HS3 x Hx). right. exact C. }
    split; [exact HSq|]. set (p := pre ++ (r, o, a) :: post) in *. set (q := pre ++ news ++ (r, o', a') :: post) in *.
    destruct (def_scope S pre inner io ia HS1 HDef) as [Hinp Hia].
    destruct (def_split _ _ _ _ HDef) as (A & B & EAB & HA).
    assert (HrN : ~ In r (map iid pre)).
    { intros C. apply Hr, in_or_app. left. apply in_rev. rewrite rev_involutive. exact C. }
    assert (HrNews : ~ In r (map iid news)) by (intros C; destruct (NF' r C) as (_ & C2 & _); congruence).
    (* definitions *)
    assert (Dpre : forall x, In x (map iid pre) -> def p x = def pre x) by (intros x Hx; apply def_app_in, Hx).
    assert (Dnews : forall x, In x (map iid news) -> def q x = def news x).
    { intros x Hx. unfold q. rewrite def_app_notin.
      - apply def_app_in, Hx.
      - intros C. apply (proj1 (NF' x Hx)), in_or_app. left. apply in_rev. rewrite rev_involutive. exact C. }
    assert (Dold : forall x, ~ In x (map iid news) -> isc (def p) x = true -> isc (def q) x = true).
    { intros x Hx. unfold p, q. destruct (in_dec Nat.eq_dec x (map iid pre)) as [Hp|Hp].
      - unfold isc. rewrite !(def_app_in pre) by exact Hp. auto.
      - unfold isc. rewrite !(def_app_notin pre) by exact Hp. rewrite (def_app_notin news) by exact Hx.
        unfold def. cbn [find iid fst]. destruct (Nat.eqb_spec r x) as [->|]; [|auto]. cbn in Hc |- *. destruct o; congruence. }
    (* uses *)
    assert (Uq : forall x, uses q outs x = uses pre [] x + (uses news [] x + (cnt x a' + uses post outs x))).
    { intros x. unfold q. rewrite uses_app, uses_app. reflexivity. }
    assert (Up : forall x, uses p outs x = uses pre [] x + (cnt x a + uses post outs x)).
    { intros x. unfold p. rewrite uses_app. reflexivity. }
    assert (Hinner : uses q outs inner = 0).
    { specialize (Up inner). rewrite U1 in Up. assert (K := cnt_pos _ _ Hin). rewrite Uq.
      assert (Nn : ~ In inner (map iid news)).
      { intros C. apply (proj1 (NF' inner C)), in_or_app. left. apply in_rev. rewrite rev_involutive. exact Hinp. }
      assert (Ni : ~ In inner ia) by (intros C; apply (proj2 (Hia inner C)); reflexivity).
      rewrite (cnt_zero inner a') by (intros C; destruct (Harg inner C); contradiction).
      rewrite (uses_notin news) by (intros i Hi C; destruct (Hargs i inner Hi C); contradiction). lia. }
    assert (Uold : forall x, ~ In x (map iid news) -> uses q outs x <> 0 -> uses p outs x <> 0).
    { intros x Hx. rewrite Uq, Up. intros H C.
      assert (Z1 : uses pre [] x = 0) by lia. assert (Z2 : uses post outs x = 0) by lia.
      assert (Nia : ~ In x ia).
      { intros C2. assert (K : 0 < uses pre [] x); [|lia]. apply (uses_in pre x (inner, io, ia)); [|exact C2].
        rewrite EAB. apply in_or_app. right. left. reflexivity. }
      apply H. rewrite Z1, Z2, (cnt_zero x a') by (intros C2; destruct (Harg x C2); contradiction).
      rewrite (uses_notin news) by (intros i Hi C2; destruct (Hargs i x Hi C2); contradiction). reflexivity. }
    assert (Iold : forall i, In i p -> ~ In (iid i) (map iid news) /\ forall x, In x (iargs i) -> ~ In x (map iid news)).
    { intros i Hi. split.
      - intros C. destruct (NF _ C) as [_ C2]. apply C2, in_map, Hi.
      - intros x Hx C. destruct (NF _ C) as [C1 C2]. assert (K := args_scope S p HSp i x Hi Hx). apply in_app_or in K.
        destruct K as [K|K]; [apply C2, in_rev, K|contradiction]. }
    assert (Hle : forall i, In i p -> wt q outs i <= wt p outs i).
    { intros i Hi. destruct (Iold i Hi) as [I1 I2]. apply wt_le; [apply Uold, I1|]. intros x Hx. apply Dold, I2, Hx. }
    (* sums *)
    unfold potential, weight.
    assert (W : total (wt q outs) q < total (wt p outs) p).
    { unfold q at 2, p at 2. rewrite !total_app. cbn [total fold_right]. fold (total (wt q outs) post). fold (total (wt p outs) post).
      assert (W1 : total (wt q outs) pre + base (def p) io ia <= total (wt p outs) pre).
      { rewrite EAB, !total_app. cbn [total fold_right]. fold (total (wt q outs) B). fold (total (wt p outs) B).
        assert (L1 : total (wt q outs) A <= total (wt p outs) A).
        { apply total_le. intros i Hi. apply Hle. unfold p. rewrite EAB. apply in_or_app. left. apply in_or_app. left. exact Hi. }
        assert (L2 : total (wt q outs) B <= total (wt p outs) B).
        { apply total_le. intros i Hi. apply Hle. unfold p. rewrite EAB. apply in_or_app. left. apply in_or_app. right. right. exact Hi. }
        assert (L3 : wt q outs (inner, io, ia) = 0) by (unfold wt; cbn [iid fst]; rewrite Hinner; reflexivity).
        assert (L4 : wt p outs (inner, io, ia) = base (def p) io ia).
        { unfold wt. cbn [iid fst iop iargs snd]. rewrite U1. reflexivity. }
        lia. }
      assert (W2 : total (wt q outs) post <= total (wt p outs) post).
      { apply total_le. intros i Hi. apply Hle. unfold p. apply in_or_app. right. right. exact Hi. }
      assert (W3 : wt p outs (r, o, a) = base (def p) o a).
      { unfold wt. cbn [iid fst iop iargs snd]. destruct (uses p outs r); [lia|reflexivity]. }
      assert (W4 := wt_base q outs (r, o', a')). cbn [iop iargs fst snd] in W4.
      assert (W5 : total (wt q outs) news <= total (fun i => base (def q) (iop i) (iargs i)) news).
      { apply total_le. intros i _. apply wt_base. }
      assert (W6 := Hw (def p) (def q) Dpre Dnews). lia. }
    assert (HL : length q <= length p + 6).
    { unfold q, p. rewrite !app_length. cbn [length]. lia. }
    lia.
  - assert (HSq : ssa S (pre ++ (r, OConst v, []) :: post)).
    { apply ssa_app in HSp. destruct HSp as [HS1 (Ha & Hr & HS3)]. apply ssa_app. split; [exact HS1|]. split; [intros x []|]. split; assumption. }
    split; [exact HSq|]. set (p := pre ++ (r, o, a) :: post) in *. set (q := pre ++ (r, OConst v, []) :: post) in *.
    assert (Up : forall x, uses p outs x = uses pre [] x + (cnt x a + uses post outs x)) by (intros x; unfold p; rewrite uses_app; reflexivity).
    assert (Uq : forall x, uses q outs x = uses pre [] x + uses post outs x) by (intros x; unfold q; rewrite uses_app; reflexivity).
    assert (Dold : forall x, isc (def p) x = true -> isc (def q) x = true).
    { intros x. unfold p, q. destruct (in_dec Nat.eq_dec x (map iid pre)) as [Hp|Hp].
      - unfold isc. rewrite !(def_app_in pre) by exact Hp. auto.
      - unfold isc. rewrite !(def_app_notin pre) by exact Hp. unfold def. cbn [find iid fst]. destruct (Nat.eqb_spec r x); auto. }
    assert (Hle : forall i, wt q outs i <= wt p outs i).
    { intros i. apply wt_le; [rewrite Uq, Up; lia|]. intros x _. apply Dold. }
    assert (W : total (wt q outs) q < total (wt p outs) p).
    { unfold q at 2, p at 2. rewrite !total_app. cbn [total fold_right]. fold (total (wt q outs) post). fold (total (wt p outs) post).
      assert (W1 : total (wt q outs) pre <= total (wt p outs) pre) by (apply total_le; auto).
      assert (W2 : total (wt q outs) post <= total (wt p outs) post) by (apply total_le; auto).
      assert (W3 : wt p outs (r, o, a) = base (def p) o a).
      { unfold wt. cbn [iid fst iop iargs snd]. destruct (uses p outs r); [lia|reflexivity]. }
      assert (W4 := wt_base q outs (r, OConst v, [])). cbn [iop iargs fst snd base] in W4.
      assert (W5 : 0 < base (def p) o a) by (destruct o; cbn in Fo |- *; try discriminate; try lia; destruct (forallb _ _); lia).
      lia. }
    unfold potential, weight. assert (HL : length q = length p) by (unfold q, p; rewrite !app_length; reflexivity). lia.
  - destruct i as [[r o] a]. cbn [iid fst] in *. destruct (uses_zero _ _ _ U0) as [N1 N2].
    assert (HSq : ssa S (pre ++ post)).
    { pose proof HSp as HS. apply ssa_app in HS. destruct HS as [HS1 (Ha & Hr & HS3)]. apply ssa_app. split; [exact HS1|].
      apply (ssa_weaken post _ _ HS3).
      - intros i x Hi Hx [->|Hs]; [|exact Hs]. exfalso. apply (N2 i); [|exact Hx]. apply in_or_app. right. right. exact Hi.
      - intros x Hx C. apply (ssa_notin _ _ HS3 x Hx). right. exact C. }
    split; [exact HSq|]. set (p := pre ++ (r, o, a) :: post) in *. set (q := pre ++ post) in *.
    assert (Up : forall x, uses p outs x = uses pre [] x + (cnt x a + uses post outs x)) by (intros x; unfold p; rewrite uses_app; reflexivity).
    assert (Uq : forall x, uses q outs x = uses pre [] x + uses post outs x) by (intros x; unfold q; rewrite uses_app; reflexivity).
    assert (Dold : forall x, x <> r -> isc (def p) x = true -> isc (def q) x = true).
    { intros x Hx. unfold p, q. destruct (in_dec Nat.eq_dec x (map iid pre)) as [Hp|Hp].
      - unfold isc. rewrite !(def_app_in pre) by exact Hp. auto.
      - unfold isc. rewrite !(def_app_notin pre) by exact Hp. unfold def. cbn [find iid fst].
        destruct (Nat.eqb_spec r x); [congruence|auto]. }
    assert (Hle : forall i, In i p -> wt q outs i <= wt p outs i).
    { intros i Hi. apply wt_le; [rewrite Uq, Up; lia|]. intros x Hx. apply Dold. intros ->. apply (N2 i Hi Hx). }
    assert (W : total (wt q outs) q <= total (wt p outs) p).
    { unfold q at 2, p at 2. rewrite !total_app. cbn [total fold_right]. fold (total (wt q outs) post). fold (total (wt p outs) post).
      assert (W1 : total (wt q outs) pre <= total (wt p outs) pre).
      { apply total_le. intros i Hi. apply Hle, in_or_app. left. exact Hi. }
      assert (W2 : total (wt q outs) post <= total (wt p outs) post).
      { apply total_le. intros i Hi. apply Hle, in_or_app. right. right. exact Hi. }
      lia. }
    unfold potential, weight. assert (HL : length p = Datatypes.S (length q)) by (unfold q, p; rewrite !app_length; cbn [length]; rewrite Nat.add_succ_r; reflexivity).
    change (7 * total (wt q outs) q + length q < 7 * total (wt p outs) p + length p). rewrite HL. clear - W. lia.
Qed.

(** Any chain of steps is short. *)
Theorem chain_bound (G : list instr -> guard) arm S outs (c : list (list instr)) p :
  ssa S p ->
  (forall k x y, nth_error (p :: c) k = Some x -> nth_error c k = Some y -> step (G x) arm S outs x y) ->
  length c <= potential p outs.
Proof.
  revert p. induction c as [|y c IH]; intros p HS H; [cbn; lia|].
  destruct (step_down (G p) arm S outs p y HS (H 0 p y eq_refl eq_refl)) as [HS' HP].
  specialize (IH y HS'). cbn [length]. assert (length c <= potential y outs); [|lia].
  apply IH. intros k x z Hx Hz. apply (H (Datatypes.S k)); assumption.
Qed.
