From Verif Require Import Base.
From Coq Require Import ssreflect ssrfun ssrbool.
From Verif Require Import FlagsModel Algebra Matrix FlagsSpec Gauss.
Set Implicit Arguments.
Unset Strict Implicit.
Set Bullet Behavior "None".
Local Open Scope mx_scope.

(** ** Plain facts about the flag records *)

Lemma flag_eqb_refl k : flag_eqb k k = true.
Proof. by rewrite /flag_eqb; case: flag_eq_dec. Qed.
Lemma flag_eqb_true a b : flag_eqb a b = true -> a = b.
Proof. by rewrite /flag_eqb; case: flag_eq_dec. Qed.

Lemma dget_app d1 d2 k : dget (d1 ++ d2)%list k = match dget d2 k with Some b => Some b | None => dget d1 k end.
Proof. elim: d1 => [|[a b] d1 IH] /=; first by case: dget. by rewrite IH; case: (dget d2 k). Qed.

Lemma set_flag_get k f k' : set_flag k f k' = if flag_eqb k k' then true else
  (if flag_eqb Linear k' && (flag_eqb k Hermitian || flag_eqb k Orthogonal || flag_eqb k Symmetric || flag_eqb k Unitary)
   then true else f k').
Proof. by case: k; case: k'. Qed.

Section Sound.
Variables (R : cring) (conj : conjugation R).
Hypothesis conjK : involutive conj.
Notation conjmx := (conjmx conj).
Notation adjmx := (adjmx conj).
Notation holds := (holds conj).

Lemma conjmxK m n (A : mx R m n) : conjmx (conjmx A) = A.
Proof. by apply: map_mxK; exact: conjK. Qed.
Lemma conjmx_tr m n (A : mx R m n) : conjmx A^T = (conjmx A)^T.
Proof. by rewrite /FlagsSpec.conjmx map_trmx. Qed.
Lemma adjmxK m n (A : mx R m n) : adjmx (adjmx A) = A.
Proof. by rewrite /FlagsSpec.adjmx conjmx_tr conjmxK trmxK. Qed.
Lemma conjmxM m n p (A : mx R m n) (B : mx R n p) : conjmx (A *m B) = conjmx A *m conjmx B.
Proof. exact: map_mxM. Qed.
Lemma adjmxM m n p (A : mx R m n) (B : mx R n p) : adjmx (A *m B) = adjmx B *m adjmx A.
Proof. by rewrite /FlagsSpec.adjmx trmx_mul conjmxM. Qed.
Lemma conjmx1 n : conjmx (onemx n : mx R n n) = onemx _.
Proof. exact: map_mx1. Qed.
Lemma adjmx1 n : adjmx (onemx n : mx R n n) = onemx _.
Proof. by rewrite /FlagsSpec.adjmx trmx1 conjmx1. Qed.

(** left and right inverses coincide *)
Lemma inv_unique n (A B C : mx R n n) : B *m A = onemx _ -> A *m C = onemx _ -> B = C.
Proof. by move=> BA AC; rewrite -[LHS]mulmx1 -AC mulmxA BA mul1mx. Qed.

(** The generic soundness argument: [PI] is the meaning given to the flag idempotent, [Q] whether that flag ends up
    set. *)
Section Generic.
Variables (n : nat) (A : mx R n n) (PI Q : Prop).
Definition holdsP (k : flag) : Prop := match k with Idempotent => PI | _ => holds A k end.
Definition soundP (f : flags) : Prop := forall k, f k = true -> holdsP k.

Hypothesis PI_orth : PI -> holds A Orthogonal -> holds A Symmetric.
Hypothesis orth_sym : Q -> holds A Orthogonal -> holds A Symmetric -> PI.
Hypothesis PI_unit : PI -> holds A Unitary -> holds A Hermitian.
Hypothesis unit_herm : Q -> holds A Unitary -> holds A Hermitian -> PI.
Hypothesis PI_any : PI -> holds A Orthogonal \/ holds A Unitary \/ holds A Involutary ->
  holds A Orthogonal /\ holds A Unitary /\ holds A Involutary.

Lemma soundP_set k f : holdsP k -> soundP f -> soundP (set_flag k f).
Proof.
move=> hk hf k'; rewrite set_flag_get; case e: (flag_eqb k k'); first by rewrite -(flag_eqb_true e).
case e': (_ && _); last exact: hf.
by move/andP: e' => [/flag_eqb_true <- _].
Qed.

Lemma soundP_when (b : bool) k f : (b = true -> holdsP k) -> soundP f -> soundP (when b k f).
Proof. by case: b => /= hk hf; [apply: soundP_set => //; exact: hk|]. Qed.

Lemma when_mono b k f k' : f k' = true -> when b k f k' = true.
Proof. by case: b => //= h; rewrite set_flag_get h; do 2 case: ifP => //. Qed.

Definition st1 (nc : bool) (f : flags) := when nc Real f.
Definition st2 (f : flags) := if f Real then
             let f := when (f Symmetric) Hermitian f in
             let f := when (f Hermitian) Symmetric f in
             let f := when (f Orthogonal) Unitary f in
             when (f Unitary) Orthogonal f
           else f.
Definition st3 (f : flags) := if f Orthogonal then
             let f := when (f Idempotent) Symmetric f in
             when (f Symmetric) Idempotent f
           else f.
Definition st4 (f : flags) := if f Unitary then
             let f := when (f Idempotent) Hermitian f in
             when (f Hermitian) Idempotent f
           else f.
Definition st5 (f : flags) := if f Involutary then
             let f := when (f Symmetric) Orthogonal f in
             let f := when (f Orthogonal) Symmetric f in
             let f := when (f Hermitian) Unitary f in
             when (f Unitary) Hermitian f
           else f.
Definition st6 (f : flags) := if f Idempotent then
    if f Orthogonal || f Unitary || f Involutary
    then set_flags f [(Orthogonal, true); (Unitary, true); (Involutary, true)]
    else f
  else f.
Lemma deduce_steps f nc : deduce f nc = st6 (st5 (st4 (st3 (st2 (st1 nc f))))).
Proof. by []. Qed.

Lemma st3_mono f k : f k = true -> st3 f k = true.
Proof. by rewrite /st3 => h; case: ifP => // _; apply: when_mono; apply: when_mono. Qed.
Lemma st4_mono f k : f k = true -> st4 f k = true.
Proof. by rewrite /st4 => h; case: ifP => // _; apply: when_mono; apply: when_mono. Qed.
Lemma st5_mono f k : f k = true -> st5 f k = true.
Proof. by rewrite /st5 => h; case: ifP => // _; do 4 apply: when_mono. Qed.
Lemma st6_mono f k : f k = true -> st6 f k = true.
Proof.
rewrite /st6 => h; do 2 case: ifP => // _; rewrite /set_flags /replace /imply_linear /=.
by case: k h.
Qed.
Lemma st2_mono f k : f k = true -> st2 f k = true.
Proof. by rewrite /st2 => h; case: ifP => // _; do 4 apply: when_mono. Qed.
Lemma st1_mono nc f k : f k = true -> st1 nc f k = true.
Proof. exact: when_mono. Qed.
Lemma deduce_mono nc f k : f k = true -> deduce f nc k = true.
Proof.
by move=> h; rewrite deduce_steps; apply: st6_mono; apply: st5_mono; apply: st4_mono; apply: st3_mono;
   apply: st2_mono; apply: st1_mono.
Qed.

Lemma soundP_step k0 k f : (holdsP k0 -> holdsP k) -> soundP f -> soundP (when (f k0) k f).
Proof. by move=> h hf; apply: soundP_when => // h0; apply: h; apply: hf. Qed.

Lemma soundP_deduce f nc : soundP f -> (nc = true -> holds A Real) ->
  (deduce f nc Idempotent = true -> Q) -> soundP (deduce f nc).
Proof.
rewrite deduce_steps => h0 hr hQ.
have h1 : soundP (st1 nc f) by apply: soundP_when.
move: (st1 nc f) h1 hQ => {hr}f {}h0 hQ.
have h1 : soundP (st2 f).
  rewrite /st2; case: ifP => // hre.
  have cA : conjmx A = A by exact: (h0 Real).
  have adjA : adjmx A = A^T by rewrite /FlagsSpec.adjmx conjmx_tr cA.
  by do 4! (apply: soundP_step => /=; first by rewrite adjA).
move: (st2 f) h1 hQ => {h0}f h0 hQ.
have h1 : soundP (st3 f).
  rewrite /st3; case: ifP => // ho; have hO := h0 _ ho.
  have hs : soundP (when (f Idempotent) Symmetric f) by apply: soundP_step => //= hi; exact: PI_orth.
  apply: soundP_when => //= hsy.
  apply: orth_sym => //; last by exact: (hs Symmetric hsy).
  apply: hQ; apply: st6_mono; apply: st5_mono; apply: st4_mono.
  by rewrite /st3 ho hsy /= set_flag_get.
move: (st3 f) h1 hQ => {h0}f h0 hQ.
have h1 : soundP (st4 f).
  rewrite /st4; case: ifP => // ho; have hO := h0 _ ho.
  have hs : soundP (when (f Idempotent) Hermitian f) by apply: soundP_step => //= hi; exact: PI_unit.
  apply: soundP_when => //= hsy.
  apply: unit_herm => //; last by exact: (hs Hermitian hsy).
  apply: hQ; apply: st6_mono; apply: st5_mono.
  by rewrite /st4 ho hsy /= set_flag_get.
move: (st4 f) h1 hQ => {h0}f h0 hQ.
have h1 : soundP (st5 f).
  rewrite /st5; case: ifP => // ho; have /= hA := h0 _ ho.
  apply: soundP_step => /= [hu|]; first by rewrite (@inv_unique _ A (adjmx A) A).
  apply: soundP_step => /= [->//|].
  apply: soundP_step => /= [hu|]; first by rewrite (@inv_unique _ A A^T A).
  by apply: soundP_step => /= [->//|].
move: (st5 f) h1 hQ => {h0}f h0 hQ.
rewrite /st6; case: ifP => // hi; case: ifP => // hany.
have hP := h0 _ hi.
have [hO [hU hI]] : holds A Orthogonal /\ holds A Unitary /\ holds A Involutary.
  apply: PI_any => //; case/orP: hany => [/orP [] /h0|/h0]; tauto.
move=> k; rewrite /set_flags /replace /imply_linear /=.
by case: k => //= hk; exact: (h0 _ hk).
Qed.
End Generic.

Notation true_flags := (true_flags conj).
Notation true_declared := (true_declared conj).

Lemma true_set_flags n (A : mx R n n) f d :
  true_flags A f -> (forall k, dtrue d k = true -> holds A k) -> true_flags A (set_flags f d).
Proof.
move=> hf hd k; rewrite /set_flags /replace /imply_linear.
have hk : (if dget d k is Some b then b else f k) = true -> holds A k.
  case e: (dget d k) => [b|]; last exact: hf.
  by move=> hb; apply: hd; rewrite /dtrue e.
case: ifP => // _; rewrite dget_app /=; case: (flag_eqb Linear k) (@flag_eqb_true Linear k) => // h _.
by rewrite -(h erefl).
Qed.

Lemma dget_as_dict l k : dtrue (as_dict l) k = true -> In k l.
Proof.
rewrite /dtrue; elim: l => //= a l IH.
case e: (dget (as_dict l) k) IH => [b|] IH; first by move=> hb; right; apply: IH.
by case: ifP => // /flag_eqb_true -> _; left.
Qed.

Lemma true_set_declared n (A : mx R n n) base d :
  true_flags A base -> true_declared A d -> true_flags A (set_declared base d).
Proof.
case: d => [|d|l|l|f] hb hd //=; apply: true_set_flags => // k.
- by move/dget_as_dict; exact: hd.
- by move/dget_as_dict; exact: hd.
Qed.

Lemma true_inplace n (A : mx R n n) f : true_flags A f -> true_flags A (inplace_flags f).
Proof.
move=> h; rewrite /inplace_flags; case: ifP => // _ k.
by rewrite /set_flags /replace /imply_linear /=; case: k => //= hk; exact: (h _ hk).
Qed.
Lemma inplace_algebra f k :
  match k with AlignedInput | AlignedOutput | ContiguousInput | ContiguousOutput => True | _ => inplace_flags f k = f k end.
Proof. by case: k => //=; rewrite /inplace_flags; case: ifP. Qed.

Lemma init_flags_none base d cplx f :
  init_flags base d cplx None = Ok f -> f = inplace_flags (deduce (set_declared base d) (~~ cplx)).
Proof. by rewrite /init_flags; case: ifP => //= _ [<-]. Qed.

Lemma idem_orth n (A : mx R n n) (B : mx R n n) : B *m A = onemx _ -> A *m A = A -> A = onemx _.
Proof. by move=> BA AA; rewrite -[LHS]mul1mx -BA -mulmxA AA. Qed.

Theorem flags_sound_partial n (A : mx R n n) base d cplx f :
  init_flags base d cplx None = Ok f ->
  true_flags A base -> true_declared A d -> (cplx = false -> holds A Real) ->
  (f Idempotent = true -> holds A Idempotent) ->
  true_flags A f.
Proof.
move=> /init_flags_none -> hb hd hr hi; apply: true_inplace.
have h0 := true_set_declared hb hd.
move: hi; rewrite (inplace_algebra _ Idempotent) => hi.
have key : soundP A (A *m A = A) (deduce (set_declared base d) (~~ cplx)).
  apply: (@soundP_deduce _ A _ (A *m A = A)) => //=.
  - by move=> AA O; rewrite (idem_orth O AA) trmx1.
  - by move=> AA O; rewrite (idem_orth O AA) adjmx1.
  - move=> AA [O|[O|O]].
    + by rewrite (idem_orth O AA) trmx1 adjmx1 mul1mx.
    + by rewrite (idem_orth O AA) trmx1 adjmx1 mul1mx.
    + by move: O; rewrite AA => ->; rewrite trmx1 adjmx1 mul1mx.
  - by move=> k hk; have := h0 k hk; case: k {hk}.
  - by move: hr; case: (cplx) => //= h _; exact: h.
by move=> k hk; have := key k hk; case: k {hk}.
Qed.

Lemma real_generic n (A : mx R n n) base d cplx f :
  init_flags base d cplx None = Ok f ->
  true_flags A base -> true_declared A d -> (cplx = false -> holds A Real) -> holds A Real ->
  soundP A (A *m A = A \/ (A *m A = onemx _ /\ A^T = A)) f.
Proof.
move=> /init_flags_none -> hb hd hr /= cA.
have adjA : adjmx A = A^T by rewrite /FlagsSpec.adjmx conjmx_tr cA.
have h0 := true_set_declared hb hd.
have key : soundP A (A *m A = A \/ (A *m A = onemx _ /\ A^T = A)) (deduce (set_declared base d) (~~ cplx)).
  apply: (@soundP_deduce _ A _ True) => //=; rewrite ?adjA //.
  - by move=> [AA|[AA ->]] O //; rewrite (idem_orth O AA) trmx1.
  - by move=> _ O S; right; split=> //; rewrite -{1}S.
  - by move=> [AA|[AA ->]] O //; rewrite (idem_orth O AA) trmx1.
  - by move=> _ O S; right; split=> //; rewrite -{1}S.
  - move=> [AA|[AA S]]; last by rewrite S.
    by move=> [O|[O|O]]; rewrite (idem_orth O AA) trmx1 mul1mx.
  - by move=> k hk; have := h0 k hk; case: k {hk} => //= ?; left.
move=> k; rewrite /inplace_flags; case: ifP => [_|_]; last exact: key.
by rewrite /set_flags /replace /imply_linear /=; case: k => //= hk; exact: (key _ hk).
Qed.

Theorem real_flags_sound n (A : mx R n n) base d cplx f :
  init_flags base d cplx None = Ok f ->
  true_flags A base -> true_declared A d -> (cplx = false -> holds A Real) -> holds A Real ->
  true_flags_but_idempotent conj A f.
Proof.
move=> e hb hd hr cA k nk hk; have := real_generic e hb hd hr cA hk.
by case: k nk {hk}.
Qed.

(** ** Rules *)
Theorem rules_sound n (A Ai : mx R n n) f :
  true_flags A f -> Ai *m A = onemx _ ->
  forall s r, init_rules f s = Some r -> subject_matrix conj A Ai s = rhs_matrix A r.
Proof.
move=> hf hi s r; case: s => /=; try by case: ifP => // hk [<-]; exact: (hf _ hk).
- case: ifP => // hk [<-] /=; have /= hI := hf _ hk; exact: (@inv_unique _ A).
- by case=> <-.
- case: ifP => [hk [<-]|_]; first exact: (hf _ hk).
  by case: ifP => // hk [<-]; exact: (hf _ hk).
Qed.

Lemma deduce_idem_invol f nc : deduce f nc Idempotent = true ->
  (deduce f nc Orthogonal || deduce f nc Unitary) = true -> deduce f nc Involutary = true.
Proof.
rewrite deduce_steps; move: (st5 _) => g; rewrite /st6.
case hi: (g Idempotent); last by rewrite hi.
case: ifP => //; case: (g Involutary); first by rewrite orbT.
by rewrite orbF => -> _.
Qed.

(** Where idempotent was deduced, and not declared, the operator is also marked as involutary. *)
Lemma deduce_idem f nc : deduce f nc Idempotent = true -> f Idempotent = true \/ deduce f nc Involutary = true.
Proof.
move=> hid; case e: (f Idempotent); [by left|right].
apply: deduce_idem_invol => //; move: hid.
have -> : deduce f nc = st6 (st5 (st4 (st3 (st2 (st1 nc f))))) by [].
have : st2 (st1 nc f) Idempotent = false.
  rewrite /st2 /st1; case: nc => /=; rewrite ?set_flag_get /=.
    by do ?[rewrite /when; case: ifP => ?]; rewrite ?set_flag_get /= ?e.
  by case: ifP => // _; do ?[rewrite /when; case: ifP => ?]; rewrite ?set_flag_get /= ?e.
move: (st2 _) => {e}f e hid.
suff: (st4 (st3 f) Orthogonal || st4 (st3 f) Unitary) = true.
  by case/orP=> h; apply/orP; [left|right]; apply: st6_mono; apply: st5_mono.
move: hid.
case ho: (f Orthogonal); first by move=> _; apply/orP; left; apply: st4_mono; apply: st3_mono.
have -> : st3 f = f by rewrite /st3 ho.
case hu: (f Unitary); first by move=> _; apply/orP; right; apply: st4_mono.
have -> : st4 f = f by rewrite /st4 hu.
have h5 : st5 f Idempotent = false.
  by rewrite /st5; do ?[rewrite /when; case: ifP => ?]; rewrite ?set_flag_get /= ?e.
by rewrite /st6 h5 h5.
Qed.

(** The rules of a real operator are sound even where the flag idempotent is not. *)
Theorem rules_sound_real n (A Ai : mx R n n) base d cplx f :
  init_flags base d cplx None = Ok f ->
  true_flags A base -> true_declared A d -> (cplx = false -> holds A Real) -> holds A Real ->
  Ai *m A = onemx _ ->
  forall s r, init_rules f s = Some r -> subject_matrix conj A Ai s = rhs_matrix A r.
Proof.
move=> e hb hd hr cA hi s r; have sf := real_flags_sound e hb hd hr cA.
have h0 := true_set_declared hb hd.
have := init_flags_none e => ef.
case: s => /=; try by case: ifP => // hk [<-]; exact: (sf _ _ hk).
- case: ifP => // hk [<-] /=; have /= hI : holds A Involutary by exact: (sf _ _ hk).
  exact: (@inv_unique _ A).
- by case=> <-.
- case: ifP => [hk [<-]|hI]; first exact: (sf _ _ hk).
  case: ifP => // hk [<-].
  move: hk hI; rewrite ef !(inplace_algebra _ Idempotent) (inplace_algebra _ Involutary) => hk hI.
  by have [/h0|] := deduce_idem hk; rewrite ?hI.
Qed.

(** ** Nothing declared is lost *)
Theorem declared_kept base d cplx u f k :
  init_flags base d cplx u = Ok f -> set_declared base d k = true -> f k = true.
Proof.
rewrite /init_flags; case: ifP => //= _.
have ip (g : flags) : g k = true -> inplace_flags g k = true.
  by rewrite /inplace_flags => h; case: ifP => // _; rewrite /set_flags /replace /imply_linear /=;
     case: k h => //= ->; rewrite ?orbT.
case: u => [u|] /=; last by move=> [<-] h; apply: ip; apply: deduce_mono.
rewrite /ufunc_flags; case: ifP => //= _ [<-] h; apply: ip.
have hst : forall kk (g : flags), g k = true -> set_flag kk g k = true by move=> kk g; exact: (@when_mono true kk g k).
apply: when_mono; do 3 apply: (hst); apply: when_mono; exact: deduce_mono.
Qed.

(** ** Composites *)
Lemma all_flag_In k (fs : list flags) f : all_flag k fs = true -> In f fs -> f k = true.
Proof. by rewrite /all_flag => h hin; apply: (proj1 (forallb_forall _ _) h). Qed.

Lemma conjmxD m n (A B : mx R m n) : conjmx (A +m B) = conjmx A +m conjmx B.
Proof. exact: map_mxD. Qed.
Lemma adjmxD m n (A B : mx R m n) : adjmx (A +m B) = adjmx A +m adjmx B.
Proof. by rewrite /FlagsSpec.adjmx trmxD conjmxD. Qed.

Lemma prod_real n (ops : operands R n) : (forall f A, In (f, A) ops -> conjmx A = A) -> conjmx (mxprod ops) = mxprod ops.
Proof.
elim: ops => [|[f A] ops IH] h /=; first exact: conjmx1.
by rewrite conjmxM (h f A) ?IH //; [left|move=> g B hin; apply: (h g B); right].
Qed.
Lemma sum_pres n (op : mx R n n -> mx R n n) (ops : operands R n) :
  op zeromx = zeromx -> (forall A B, op (A +m B) = op A +m op B) ->
  (forall f A, In (f, A) ops -> op A = A) -> op (mxsum ops) = mxsum ops.
Proof.
move=> h0 hD; elim: ops => [|[f A] ops IH] h //=.
by rewrite hD (h f A) ?IH //; [left|move=> g B hin; apply: (h g B); right].
Qed.

Lemma In_fst n (ops : operands R n) f A : In (f, A) ops -> In f (List.map fst ops).
Proof. by move=> h; apply: (in_map fst _ _ h). Qed.

Theorem composition_flags_sound n (ops : operands R n) d :
  true_operands conj ops -> merge_flags_composition (List.map fst ops) = Ok d ->
  forall k, dtrue d k = true -> holds (mxprod ops) k.
Proof.
move=> ht; case E: (List.map fst ops) => [//|f0 fs] [<-] k.
case: k => // hk; have {}hk : all_flag Real (List.map fst ops) = true by rewrite E; exact: hk.
apply: prod_real => f A hin.
by apply: (ht _ _ hin Real); apply: (all_flag_In hk); apply: In_fst hin.
Qed.

Theorem addition_flags_sound_partial n (ops : operands R n) :
  true_operands conj ops ->
  forall k, k <> Hermitian \/ (forall f A, In (f, A) ops -> holds A Real) ->
  dtrue (merge_flags_addition (List.map fst ops)) k = true -> holds (mxsum ops) k.
Proof.
move=> ht; case=> //= hor.
- move=> hk; apply: sum_pres; [exact: map_mx0|exact: conjmxD|move=> f A hin].
  by apply: (ht _ _ hin Real); apply: (all_flag_In hk); apply: In_fst hin.
- move=> hk; apply: sum_pres; [exact: trmx0|exact: trmxD|move=> f A hin].
  by apply: (ht _ _ hin Symmetric); apply: (all_flag_In hk); apply: In_fst hin.
- case: hor => // hre hk; apply: sum_pres.
  + by rewrite /FlagsSpec.adjmx trmx0 /FlagsSpec.conjmx map_mx0.
  + exact: adjmxD.
  move=> f A hin; rewrite /FlagsSpec.adjmx conjmx_tr (hre _ _ hin).
  by apply: (ht _ _ hin Symmetric); apply: (all_flag_In hk); apply: In_fst hin.
Qed.

Lemma bdiag_pres (op : forall m n, mx R m n -> mx R n m) (ops : blocks R) :
  (forall n, op n n (onemx _) = onemx _) ->
  (forall m n (A : mx R m m) (B : mx R n n), op _ _ (diagmx A B) = diagmx (op _ _ A) (op _ _ B)) ->
  (forall f B, In (f, B) ops -> op _ _ (projT2 B) = projT2 B) -> op _ _ (projT2 (bdiag ops)) = projT2 (bdiag ops).
Proof.
move=> h0 hb; elim: ops => [|[f A] ops IH] h /=; first exact: h0.
by rewrite hb (h f A) ?IH //; [left|move=> g B hin; apply: (h g B); right].
Qed.

Theorem block_diagonal_flags_sound (ops : blocks R) :
  true_blocks conj ops ->
  forall k, dtrue (merge_flags_block_diagonal (List.map fst ops)) k = true -> holds (projT2 (bdiag ops)) k.
Proof.
move=> ht; have inF f B : In (f, B) ops -> In f (List.map fst ops) by move=> h; apply: (in_map fst _ _ h).
case=> //= hk.
- have hr : forall f B, In (f, B) ops -> conjmx (projT2 B) = projT2 B.
    by move=> f A hin; apply: (ht _ _ hin Real); apply: (all_flag_In hk); apply: inF hin.
  elim: ops hr {ht inF hk} => [|[f A] ops IH] h /=; first exact: conjmx1.
  rewrite /FlagsSpec.conjmx map_diagmx -!/(FlagsSpec.conjmx conj _).
  by rewrite (h f A) ?IH //; [left|move=> g B hin; apply: (h g B); right].
- apply: (@bdiag_pres (fun m n A => A^T)) => [k|m k A B|f A hin]; first exact: trmx1.
    by rewrite trmx_diag.
  by apply: (ht _ _ hin Symmetric); apply: (all_flag_In hk); apply: inF hin.
- apply: (@bdiag_pres (fun m n A => adjmx A)) => [k|m k A B|f A hin]; first exact: adjmx1.
    by rewrite /FlagsSpec.adjmx trmx_diag /FlagsSpec.conjmx map_diagmx.
  by apply: (ht _ _ hin Hermitian); apply: (all_flag_In hk); apply: inF hin.
Qed.
End Sound.

(** ** Witnesses *)
Definition noflags : flags := default_flags.

Lemma true_default (R : cring) (conj : conjugation R) n (A : mx R n n) : true_flags conj A noflags.
Proof. by case. Qed.
Lemma In_two (k a b : flag) (P : flag -> Prop) : P a -> P b -> In k [a; b] -> P k.
Proof. by move=> ha hb /= [<-|[<-|//]]. Qed.

(** The real operator x -> -x on vectors with one element, declared orthogonal and symmetric. *)
Definition zconj : conjugation Zring := idconj Zring.
Definition minus1 : mx Zring 1 1 := scalarmx 1 ((-1)%Z : Zring).
Definition minus1_flags : flags :=
  match init_flags noflags (DString [Orthogonal; Symmetric]) false None with Ok f => f | Raise _ => noflags end.

Lemma minus1_init : init_flags noflags (DString [Orthogonal; Symmetric]) false None = Ok minus1_flags.
Proof. by []. Qed.
(** Equality of matrices with given elements *)
Lemma mx_list_eq (K : cring) m n (A B : mx K m n) : mx_list A = mx_list B -> A = B.
Proof. by move=> e; apply: mx_eq => i j _ _; rewrite /el e. Qed.
Lemma minus1_declared : true_declared zconj minus1 (DString [Orthogonal; Symmetric]).
Proof. by move=> k; apply: In_two; apply: mx_list_eq; vm_compute. Qed.
Lemma minus1_real : holds zconj minus1 Real.
Proof. by apply: mx_list_eq; vm_compute. Qed.
Lemma minus1_square : minus1 *m minus1 <> minus1.
Proof. by move=> /(congr1 mx_list); vm_compute. Qed.

Theorem idempotent_refuted : exists (n : nat) (A : mx Zring n n) (d : declared) (f : flags),
  init_flags noflags d false None = Ok f /\ true_flags zconj A noflags /\ true_declared zconj A d /\
  holds zconj A Real /\ f Idempotent = true /\ ~ holds zconj A Idempotent.
Proof.
exists 1%nat, minus1, (DString [Orthogonal; Symmetric]), minus1_flags.
split; first exact: minus1_init.
split; first exact: true_default.
split; first exact: minus1_declared.
split; first exact: minus1_real.
split; [by []|exact: minus1_square].
Qed.

Theorem square_refuted : exists (n : nat) (A : mx Zring n n) (d : declared) (f : flags),
  init_flags noflags d false None = Ok f /\ true_declared zconj A d /\ holds zconj A Real /\
  square_matrix A (mul_self f) <> A *m A.
Proof.
exists 1%nat, minus1, (DString [Orthogonal; Symmetric]), minus1_flags.
split; first exact: minus1_init.
split; first exact: minus1_declared.
split; first exact: minus1_real.
by move=> /= h; apply: minus1_square; rewrite -h.
Qed.

(** The complex symmetric matrix 1 - 2 v v^T, v = (1, 1, i): its square is 1 but it is not unitary. *)
Definition gi : Gring := GI 0 1.
Definition vref (i : nat) : Gring := if Nat.eqb i 2 then gi else r1.
Definition refl : mx Gring 3 3 := build 3 3 (fun i j => rsub (if Nat.eqb i j then r1 else r0) (rmul (radd r1 r1) (rmul (vref i) (vref j)))).
Definition refl_flags : flags :=
  match init_flags noflags (DString [Orthogonal; Symmetric]) true None with Ok f => f | Raise _ => noflags end.

Lemma refl_tr : refl^T = refl.
Proof. by apply: mx_list_eq; vm_compute. Qed.
Lemma refl_orth : refl^T *m refl = onemx 3.
Proof. by apply: mx_list_eq; vm_compute. Qed.
Lemma refl_not_unitary : adjmx Gconj refl *m refl <> onemx 3.
Proof. by move=> /(congr1 mx_list); vm_compute. Qed.

Theorem unitary_refuted : exists (n : nat) (A : mx Gring n n) (d : declared) (f : flags),
  init_flags noflags d true None = Ok f /\ true_declared Gconj A d /\
  f Unitary = true /\ ~ holds Gconj A Unitary.
Proof.
exists 3%nat, refl, (DString [Orthogonal; Symmetric]), refl_flags.
split; first by [].
split; first by move=> k; apply: In_two; [exact: refl_orth|exact: refl_tr].
split; [by []|exact: refl_not_unitary].
Qed.

(** The sum of two complex symmetric operators is marked hermitian. *)
Definition symf : flags := fun k => match k with Linear | Square | Symmetric | Outplace => true | _ => false end.
Theorem addition_hermitian_refuted : exists (n : nat) (ops : operands Gring n),
  true_operands Gconj ops /\
  dtrue (merge_flags_addition (List.map fst ops)) Hermitian = true /\
  ~ holds Gconj (mxsum ops) Hermitian.
Proof.
exists 1%nat, [(symf, (scalarmx 1 gi : mx Gring 1 1)); (symf, scalarmx 1 gi)].
split; first by move=> f A /= [[<- <-]|[[<- <-]|//]]; case=> //= _; rewrite trmx_scalar.
split; first by [].
by move=> /(congr1 mx_list); vm_compute.
Qed.

(** A concrete projector, used to show that the hypotheses of the theorems are met. *)
Definition proj0 : mx Zring 2 2 := build 2 2 (fun i j => if Nat.eqb i 0 && Nat.eqb j 0 then r1 else r0).
Lemma proj0_declared : true_declared zconj proj0 (DString [Idempotent; Symmetric]).
Proof. by move=> k; apply: In_two; apply: mx_list_eq; vm_compute. Qed.
Lemma proj0_real : holds zconj proj0 Real.
Proof. by apply: mx_list_eq; vm_compute. Qed.
Lemma proj0_idem : holds zconj proj0 Idempotent.
Proof. by apply: mx_list_eq; vm_compute. Qed.

(** ** linear, square *)
Section Maps.
Variables (R : cring) (V : lmod R).

Lemma vaddACA (x y z t : V) : vadd (vadd x y) (vadd z t) = vadd (vadd x z) (vadd y t).
Proof. by rewrite -!vaddA [vadd y (vadd z t)]vaddA [vadd y z]vaddC -vaddA. Qed.
Lemma vadd_scale0 (a : R) : vadd (vscale a v0) v0 = v0 :> V.
Proof.
have e : vscale a (v0 : V) = v0; last by rewrite e vadd0.
transitivity (vscale a (vadd (v0 : V) (vscale (ropp r1) v0))); first by rewrite vaddN.
by rewrite vscaleDr vscaleA (rmul_comm a) -vscaleA vaddN.
Qed.
Lemma prod_linear (ops : map_operands V) :
  (forall f g, In (f, g) ops -> linear_map g) -> linear_map (map_prod ops).
Proof.
elim: ops => [|[f g] ops IH] h a x y //=.
have hg : linear_map g by apply: (h f g); left.
have hp : linear_map (map_prod ops) by apply: IH => f' g' hin; apply: (h f' g'); right.
by rewrite hp hg.
Qed.
Lemma sum_linear (ops : map_operands V) :
  (forall f g, In (f, g) ops -> linear_map g) -> linear_map (map_sum ops).
Proof.
elim: ops => [|[f g] ops IH] h a x y //=; first by rewrite vadd_scale0.
have hg : linear_map g by apply: (h f g); left.
have hp : linear_map (map_sum ops) by apply: IH => f' g' hin; apply: (h f' g'); right.
by rewrite hp hg vscaleDr vaddACA.
Qed.

Lemma all_linear (ops : map_operands V) : true_linear ops -> all_flag Linear (List.map fst ops) = true ->
  forall f g, In (f, g) ops -> linear_map g.
Proof. by move=> ht hk f g hin; apply: (ht f g hin); apply: (all_flag_In hk); apply: (in_map fst _ _ hin). Qed.

Theorem composition_linear_sound (ops : map_operands V) d : true_linear ops ->
  merge_flags_composition (List.map fst ops) = Ok d -> dtrue d Linear = true -> linear_map (map_prod ops).
Proof.
move=> ht; case E: (List.map fst ops) => [//|f0 fs] [<-] hk.
by apply: prod_linear; apply: all_linear => //; rewrite E; exact: hk.
Qed.
Theorem addition_linear_sound (ops : map_operands V) : true_linear ops ->
  dtrue (merge_flags_addition (List.map fst ops)) Linear = true -> linear_map (map_sum ops).
Proof. by move=> ht hk; apply: sum_linear; apply: all_linear. Qed.
Theorem block_diagonal_linear_sound (ops : map_operands V) : true_linear ops ->
  dtrue (merge_flags_block_diagonal (List.map fst ops)) Linear = true ->
  forall a xs ys, length xs = length ys -> map_diag ops (axpy a xs ys) = axpy a (map_diag ops xs) (map_diag ops ys).
Proof.
move=> ht hk; have {ht hk} : forall f g, In (f, g) ops -> linear_map g by apply: all_linear.
rewrite /map_diag /axpy; elim: ops => [|[f g] ops IH] h a [|x xs] [|y ys] //= [e].
have hg : linear_map g by apply: (h f g); left.
by rewrite hg IH // => f' g' hin; apply: (h f' g'); right.
Qed.
End Maps.

Theorem composition_square_sound (ops : sized) d nin nout : true_square ops ->
  merge_flags_composition (List.map fst ops) = Ok d -> dtrue d Square = true -> fit ops nin nout -> nin = nout.
Proof.
move=> ht; case E: (List.map fst ops) => [//|f0 fs] [<-] hk.
have {E}hk : all_flag Square (List.map fst ops) = true by rewrite E.
elim: ops nout ht hk => [|[f [i o]] ops IH] nout ht //= /andP [hf hk] [<- hfit].
have <- : i = o by apply: (ht f i o) => //; left.
by apply: IH => // f' i' o' hin; apply: (ht f'); right.
Qed.
Theorem addition_square_sound (ops : sized) nin nout : true_square ops ->
  dtrue (merge_flags_addition (List.map fst ops)) Square = true ->
  (forall f i o, In (f, (i, o)) ops -> i = nin /\ o = nout) -> nin = nout.
Proof.
move=> ht hk hs; have {hk} : any_flag Square (List.map fst ops) = true by exact: hk.
elim: ops ht hs => [|[f [i o]] ops IH] ht hs //= /orP [hf|hk].
  have [<- <-] := hs f i o (or_introl erefl); apply: (ht f) => //; by left.
by apply: IH => // f' i' o' hin; [apply: (ht f'); right|apply: (hs f'); right].
Qed.

Theorem square_sound (R : cring) (conj : conjugation R) n (A : mx R n n) (f : flags) :
  true_flags conj A f -> square_matrix A (mul_self f) = A *m A.
Proof. by move=> ht; rewrite /mul_self; case E : (f Idempotent) => //=; rewrite (ht _ E). Qed.
