(** C90: the measured size is that of a file from which the compressed image can be read
    back. *)
From Coq Require Import String Ascii ZArith Arith List Bool Lia.
From Verif Require Import Base Pickle_Model.
Import ListNotations.
Open Scope Z_scope.

(** * Specification *)

Definition ident (v : val) : option nat :=
  match v with
  | VInt _ | VTuple _ [] => None
  | VBytes i _ | VStr i _ | VList i _ | VTuple i _ | VClass i _ _ | VObj i _ _ => Some i
  end.
Definition children (v : val) : list val :=
  match v with
  | VInt _ | VBytes _ _ | VStr _ _ => []
  | VList _ l | VTuple _ l => l
  | VClass _ a b | VObj _ a b => [a; b]
  end.
(** [sub v x]: [x] is [v] or inside it. *)
Inductive sub : val -> val -> Prop :=
| sub_here v : sub v v
| sub_child v c x : In c (children v) -> sub c x -> sub v x.

(** Python's invariants: one identity is one object, names are strings, the arguments of a
    named tuple are a tuple; and sizes that fit: integers below 2^31, strings below 2^64,
    less than 2^32 objects. *)
Definition local (v : val) : Prop :=
  match v with
  | VInt n => 0 <= n < 2 ^ 31
  | VBytes _ b => len b < 2 ^ 64
  | VStr _ s => len s < 2 ^ 64
  | VList _ _ | VTuple _ _ => True
  | VClass _ m n => (exists i s, m = VStr i s) /\ exists i s, n = VStr i s
  | VObj _ c a => (exists i m n, c = VClass i m n) /\ exists i l, a = VTuple i l
  end.
Fixpoint size (v : val) : Z :=
  match v with
  | VInt _ | VBytes _ _ | VStr _ _ => 1
  | VList _ l | VTuple _ l => 1 + (fix go (l : list val) := match l with [] => 0 | x :: l' => size x + go l' end) l
  | VClass _ a b | VObj _ a b => 1 + size a + size b
  end.
Definition wf (v : val) : Prop :=
  (forall x, sub v x -> local x) /\
  (forall x y i, sub v x -> sub v y -> ident x = Some i -> ident y = Some i -> x = y) /\
  size v < 2 ^ 32.

(** [denotes H p v]: what the unpickler built, with the lists in [H], is the object. *)
Inductive denotes (H : nat -> option (list pv)) : pv -> val -> Prop :=
| D_int n : denotes H (PInt n) (VInt n)
| D_bytes i b : denotes H (PBytes b) (VBytes i b)
| D_str i s : denotes H (PStr s) (VStr i s)
| D_list a ps i l : H a = Some ps -> Forall2 (denotes H) ps l -> denotes H (PListRef a) (VList i l)
| D_tuple ps i l : Forall2 (denotes H) ps l -> denotes H (PTuple ps) (VTuple i l)
| D_class i j m k n : denotes H (PClass m n) (VClass i (VStr j m) (VStr k n))
| D_obj i p ps c a : denotes H p c -> denotes H (PTuple ps) a -> denotes H (PObj p ps) (VObj i c a).

(** * Integers and payloads *)

Lemma le_length : forall k n, length (le k n) = k.
Proof. induction k; intros; cbn; [reflexivity|now rewrite IHk]. Qed.
Lemma len_app : forall a b, len (a ++ b) = len a + len b.
Proof. intros; unfold len; rewrite app_length; lia. Qed.
Lemma len_nonneg : forall a, 0 <= len a. Proof. intros; unfold len; lia. Qed.
Lemma len_le : forall k n, len (le k n) = Z.of_nat k.
Proof. intros; unfold len; rewrite le_length; reflexivity. Qed.

Lemma unle_le : forall k n, 0 <= n < 256 ^ Z.of_nat k -> unle (le k n) = n.
Proof.
  induction k as [|k IH]; intros n Hn.
  - cbn in *. lia.
  - cbn [le unle]. rewrite IH.
    + rewrite (Z.div_mod n 256) at 3 by lia. lia.
    + rewrite Nat2Z.inj_succ, Z.pow_succ_r in Hn by lia. split; [apply Z.div_pos; lia|].
      apply Z.div_lt_upper_bound; lia.
Qed.

Lemma take_app : forall a b n, n = len a -> take n (a ++ b) = Ok (a, b).
Proof.
  intros a b n ->. unfold take. rewrite len_app. pose proof (len_nonneg b).
  destruct (Z.ltb_spec (len a + len b) (len a)); [lia|].
  unfold len. rewrite Nat2Z.id, firstn_app, skipn_app, firstn_all, skipn_all, Nat.sub_diag. cbn.
  rewrite app_nil_r. reflexivity.
Qed.

Lemma counted_app : forall k d rest, len d < 256 ^ Z.of_nat k -> counted (Z.of_nat k) (le k (len d) ++ d ++ rest) = Ok (d, rest).
Proof.
  intros k d rest Hd. unfold counted. rewrite take_app by (rewrite len_le; reflexivity). cbn [bind].
  rewrite unle_le by (pose proof (len_nonneg d); lia). apply take_app. reflexivity.
Qed.

(** * Running *)

Inductive steps : mstate -> list Z -> mstate -> list Z -> Prop :=
| steps_refl s b : steps s b s b
| steps_cons s b s1 b1 s2 b2 : mstep s b = Ok (inl (s1, b1)) -> (length b1 < length b)%nat -> steps s1 b1 s2 b2 -> steps s b s2 b2.
Lemma steps_trans : forall s b s1 b1 s2 b2, steps s b s1 b1 -> steps s1 b1 s2 b2 -> steps s b s2 b2.
Proof. intros s b s1 b1 s2 b2 H; induction H; intros; [assumption|]. eapply steps_cons; eauto. Qed.

Lemma run_steps : forall s b s' b', steps s b s' b' -> forall f r, (f <= length b')%nat -> run f s' b' = Ok r ->
  exists f', (f' <= length b)%nat /\ run f' s b = Ok r.
Proof.
  intros s b s' b' H; induction H as [s b|s b s1 b1 s2 b2 E L H IH]; intros f r F R.
  - exists f; auto.
  - destruct (IH f r F R) as [f' [F' R']]. exists (S f'). split; [lia|]. cbn [run]. rewrite E. cbn [bind]. exact R'.
Qed.
Lemma run_more : forall f s b r, run f s b = Ok r -> forall f', (f <= f')%nat -> run f' s b = Ok r.
Proof.
  induction f as [|f IH]; intros s b r H f' L; [discriminate|]. destruct f' as [|f']; [lia|].
  cbn [run] in *. destruct (mstep s b) as [[[s1 b1]|p]|e]; cbn [bind] in *; [|exact H|discriminate].
  apply IH; [exact H|lia].
Qed.

Definition sem (s : mstate) (c : list Z) (s' : mstate) : Prop := forall rest, steps s (c ++ rest) s' rest.
Fixpoint sems (s : mstate) (cs : list (list Z)) (s' : mstate) : Prop :=
  match cs with [] => s = s' | c :: cs' => exists s1, sem s c s1 /\ sems s1 cs' s' end.
Lemma sems_app : forall cs s s1 cs' s2, sems s cs s1 -> sems s1 cs' s2 -> sems s (cs ++ cs') s2.
Proof.
  induction cs as [|c cs IH]; intros s s1 cs' s2 H H'; cbn in *; [subst; exact H'|].
  destruct H as [s0 [A B]]. exists s0; split; [exact A|eauto].
Qed.
Lemma sems_one : forall s c s', sem s c s' -> sems s [c] s'.
Proof. intros; cbn; exists s'; auto. Qed.

Ltac one_op := intros rest; eapply steps_cons; [reflexivity|cbn; rewrite ?app_length; lia|apply steps_refl].

Lemma sem_mark : forall st u h, sem (mkM st u h) [MARK] (mkM (IMark :: st) u h). Proof. intros st u h; one_op. Qed.
Lemma sem_memoize : forall p st u h, sem (mkM (IVal p :: st) u h) [MEMOIZE] (mkM (IVal p :: st) (u ++ [p]) h).
Proof. intros p st u h; one_op. Qed.
Lemma sem_empty_tuple : forall st u h, sem (mkM st u h) [EMPTY_TUPLE] (mkM (IVal (PTuple []) :: st) u h).
Proof. intros; one_op. Qed.
Lemma sem_empty_list : forall st u h, sem (mkM st u h) [EMPTY_LIST] (mkM (IVal (PListRef (length h)) :: st) u (h ++ [[]])).
Proof. intros; one_op. Qed.
Lemma sem_global : forall m n st u h, sem (mkM (IVal (PStr n) :: IVal (PStr m) :: st) u h) [STACK_GLOBAL] (mkM (IVal (PClass m n) :: st) u h).
Proof. intros; one_op. Qed.
Lemma sem_newobj : forall m n a st u h,
  sem (mkM (IVal (PTuple a) :: IVal (PClass m n) :: st) u h) [NEWOBJ] (mkM (IVal (PObj (PClass m n) a) :: st) u h).
Proof. intros; one_op. Qed.
Lemma sem_tuple1 : forall x st u h, sem (mkM (IVal x :: st) u h) [TUPLE1] (mkM (IVal (PTuple [x]) :: st) u h).
Proof. intros; one_op. Qed.
Lemma sem_tuple2 : forall x y st u h, sem (mkM (IVal y :: IVal x :: st) u h) [TUPLE2] (mkM (IVal (PTuple [x; y]) :: st) u h).
Proof. intros; one_op. Qed.
Lemma sem_tuple3 : forall x y z st u h, sem (mkM (IVal z :: IVal y :: IVal x :: st) u h) [TUPLE3] (mkM (IVal (PTuple [x; y; z]) :: st) u h).
Proof. intros; one_op. Qed.

Lemma pop_mark_app : forall ps acc st, pop_mark (rev (map IVal ps) ++ IMark :: st) acc = Ok (ps ++ acc, st).
Proof.
  intros ps; induction ps as [|p ps IH] using rev_ind; intros acc st; [reflexivity|].
  rewrite map_app, rev_app_distr. cbn [map rev app pop_mark]. rewrite IH, <- app_assoc. reflexivity.
Qed.
Lemma sem_tuple : forall ps st u h, sem (mkM (rev (map IVal ps) ++ IMark :: st) u h) [TUPLE] (mkM (IVal (PTuple ps) :: st) u h).
Proof.
  intros ps st u h rest. eapply steps_cons with (b1 := rest); [|cbn; lia|apply steps_refl].
  cbn -[pop_mark]. rewrite pop_mark_app, app_nil_r. reflexivity.
Qed.

Lemma sem_append : forall p a l st u h, nth_error h a = Some l ->
  sem (mkM (IVal p :: IVal (PListRef a) :: st) u h) [APPEND] (mkM (IVal (PListRef a) :: st) u (upd h a (l ++ [p]))).
Proof.
  intros p a l st u h E rest. eapply steps_cons with (b1 := rest); [|cbn; lia|apply steps_refl].
  cbn. rewrite E. reflexivity.
Qed.
Lemma sem_appends : forall ps a l st u h, nth_error h a = Some l ->
  sem (mkM (rev (map IVal ps) ++ IMark :: IVal (PListRef a) :: st) u h) [APPENDS] (mkM (IVal (PListRef a) :: st) u (upd h a (l ++ ps))).
Proof.
  intros ps a l st u h E rest. eapply steps_cons with (b1 := rest); [|cbn; lia|apply steps_refl].
  cbn -[pop_mark]. rewrite pop_mark_app, app_nil_r. cbn. rewrite E. reflexivity.
Qed.

Definition chunk (e : ev) : list (list Z) := match e with Boundary => [] | Write b | Large b => [b] end.
Definition chunks (evs : list ev) : list (list Z) := flat_map chunk evs.
Lemma chunks_app : forall a b, chunks (a ++ b) = chunks a ++ chunks b.
Proof. intros; unfold chunks; apply flat_map_app. Qed.

Lemma sem_int : forall n st u h, 0 <= n < 2 ^ 31 -> sems (mkM st u h) (chunk (save_int n)) (mkM (IVal (PInt n) :: st) u h).
Proof.
  intros n st u h Hn. apply sems_one. intros rest. unfold save_int.
  destruct (Z.ltb_spec n 256); [|destruct (Z.ltb_spec n 65536)].
  - eapply steps_cons with (b1 := rest); [|cbn [length app]; rewrite !app_length; cbn [length]; lia|apply steps_refl].
    cbn -[le take unle]. rewrite take_app by (rewrite len_le; reflexivity). cbn [bind].
    rewrite unle_le by (cbn; lia). reflexivity.
  - eapply steps_cons with (b1 := rest); [|cbn [length app]; rewrite !app_length; cbn [length]; lia|apply steps_refl].
    cbn -[le take unle]. rewrite take_app by (rewrite len_le; reflexivity). cbn [bind].
    rewrite unle_le by (cbn; lia). reflexivity.
  - eapply steps_cons with (b1 := rest); [|cbn [length app]; rewrite !app_length; cbn [length]; lia|apply steps_refl].
    cbn -[le take unle]. rewrite take_app by (rewrite len_le; reflexivity). cbn [bind].
    rewrite unle_le by (cbn; lia). destruct (Z.ltb_spec n 2147483648); [reflexivity|lia].
Qed.

Lemma save_data_chunk : forall a b c d, chunk (save_data a b c d) =
  [(if len d <=? 255 then a :: le 1 (len d) else if len d <=? 4294967295 then b :: le 4 (len d) else c :: le 8 (len d)) ++ d].
Proof. intros. unfold save_data, write_bytes. destruct (FRAME_SIZE_TARGET <=? len d); reflexivity. Qed.

Lemma sem_bytes : forall d st u h, len d < 2 ^ 64 ->
  sems (mkM st u h) (chunk (save_data SHORT_BINBYTES BINBYTES BINBYTES8 d)) (mkM (IVal (PBytes d) :: st) u h).
Proof.
  intros d st u h Hd. rewrite save_data_chunk. apply sems_one. intros rest. pose proof (len_nonneg d).
  destruct (Z.leb_spec (len d) 255); [|destruct (Z.leb_spec (len d) 4294967295)];
    (eapply steps_cons with (b1 := rest); [|cbn [length app]; rewrite !app_length; cbn [length]; lia|apply steps_refl]);
    cbn -[le counted]; rewrite <- app_assoc.
  - change 1 with (Z.of_nat 1). rewrite counted_app by (cbn; lia). reflexivity.
  - change 4 with (Z.of_nat 4). rewrite counted_app by (cbn; lia). reflexivity.
  - change 8 with (Z.of_nat 8). rewrite counted_app by (cbn; lia). reflexivity.
Qed.
Lemma sem_str : forall d st u h, len d < 2 ^ 64 ->
  sems (mkM st u h) (chunk (save_data SHORT_BINUNICODE BINUNICODE BINUNICODE8 d)) (mkM (IVal (PStr d) :: st) u h).
Proof.
  intros d st u h Hd. rewrite save_data_chunk. apply sems_one. intros rest. pose proof (len_nonneg d).
  destruct (Z.leb_spec (len d) 255); [|destruct (Z.leb_spec (len d) 4294967295)];
    (eapply steps_cons with (b1 := rest); [|cbn [length app]; rewrite !app_length; cbn [length]; lia|apply steps_refl]);
    cbn -[le counted]; rewrite <- app_assoc.
  - change 1 with (Z.of_nat 1). rewrite counted_app by (cbn; lia). reflexivity.
  - change 4 with (Z.of_nat 4). rewrite counted_app by (cbn; lia). reflexivity.
  - change 8 with (Z.of_nat 8). rewrite counted_app by (cbn; lia). reflexivity.
Qed.
Lemma sem_get : forall k p st u h, nth_error u k = Some p -> Z.of_nat k < 2 ^ 32 ->
  sems (mkM st u h) (chunk (memo_get k)) (mkM (IVal p :: st) u h).
Proof.
  intros k p st u h E K. apply sems_one. intros rest. unfold memo_get.
  destruct (Z.ltb_spec (Z.of_nat k) 256);
    (eapply steps_cons with (b1 := rest); [|cbn [length app]; rewrite !app_length; cbn [length]; lia|apply steps_refl]);
    cbn -[le take unle]; rewrite take_app by (rewrite len_le; reflexivity); cbn [bind];
    rewrite unle_le by (cbn; lia); rewrite Nat2Z.id, E; reflexivity.
Qed.

(** ** Framing only adds headers between opcodes *)

Inductive framed : list (list Z) -> list Z -> Prop :=
| framed_nil : framed [] []
| framed_chunk c cs b : framed cs b -> framed (c :: cs) (c ++ b)
| framed_header n cs b : framed cs b -> framed cs ((FRAME :: le 8 n) ++ b).
Lemma framed_app : forall a x b y, framed a x -> framed b y -> framed (a ++ b) (x ++ y).
Proof.
  intros a x b y H; induction H; intros F; cbn [app]; [exact F| |].
  - rewrite <- app_assoc. constructor; auto.
  - change (framed (cs ++ b) ((FRAME :: le 8 n) ++ b0 ++ y)). constructor; auto.
Qed.
Lemma framed_concat : forall cs, framed cs (concat cs).
Proof. induction cs; cbn; [constructor|now constructor]. Qed.
Lemma framed_close : forall cs1 out cs2 cur, framed cs1 out ->
  match cur with None => cs2 = [] | Some c => concat cs2 = c end -> framed (cs1 ++ cs2) (close_frame out cur).
Proof.
  intros cs1 out cs2 [c|] F E; cbn [close_frame].
  - apply framed_app; [exact F|]. rewrite <- E. destruct (FRAME_SIZE_MIN <=? len (concat cs2)); [constructor|]; apply framed_concat.
  - subst; rewrite app_nil_r; exact F.
Qed.
Lemma framed_frames : forall evs cs1 out cs2 cur, framed cs1 out ->
  match cur with None => cs2 = [] | Some c => concat cs2 = c end ->
  framed (cs1 ++ cs2 ++ chunks evs) (frames evs out cur).
Proof.
  induction evs as [|[|b|b] evs IH]; intros cs1 out cs2 cur F E; cbn [frames chunks flat_map chunk app].
  - rewrite app_nil_r. apply framed_close; auto.
  - fold (chunks evs). destruct cur as [c|]; [|apply IH; auto].
    destruct (FRAME_SIZE_TARGET <=? len c); [|apply IH; auto].
    rewrite app_assoc. change (chunks evs) with ([] ++ chunks evs). apply IH; [|reflexivity]. apply framed_close; auto.
  - fold (chunks evs). replace (cs1 ++ cs2 ++ b :: chunks evs) with (cs1 ++ (cs2 ++ [b]) ++ chunks evs) by (rewrite <- !app_assoc; reflexivity).
    apply IH; [exact F|]. rewrite concat_app. cbn. rewrite app_nil_r. destruct cur; subst; reflexivity.
  - fold (chunks evs). replace (cs1 ++ cs2 ++ b :: chunks evs) with (((cs1 ++ cs2) ++ [b]) ++ [] ++ chunks evs) by (rewrite <- !app_assoc; reflexivity).
    apply IH; [|reflexivity]. apply framed_app; [apply framed_close; auto|].
    rewrite <- (app_nil_r b) at 2. repeat constructor.
Qed.
Lemma framed_sems : forall cs b, framed cs b -> forall s s', sems s cs s' -> forall rest, steps s (b ++ rest) s' rest.
Proof.
  intros cs b F; induction F; intros s s' H rest.
  - cbn in H; subst; constructor.
  - destruct H as [s1 [A B]]. rewrite <- app_assoc. eapply steps_trans; [apply A|]. apply IHF; exact B.
  - rewrite <- app_assoc. cbn [app]. eapply steps_cons; [| |apply IHF; exact H].
    + cbn -[le take]. rewrite take_app by (rewrite len_le; reflexivity). reflexivity.
    + cbn [length]. rewrite (app_length (le 8 n)), le_length. lia.
Qed.

(** * Saving *)

Lemma size_pos : forall v, 1 <= size v.
Proof.
  fix IH 1. intros [n|i b|i s|i l|i l|i a b|i a b]; cbn [size]; try lia.
  - assert (0 <= (fix go (l : list val) := match l with [] => 0 | x :: l' => size x + go l' end) l); [|lia].
    induction l as [|x l L]; [lia|]. specialize (IH x). lia.
  - assert (0 <= (fix go (l : list val) := match l with [] => 0 | x :: l' => size x + go l' end) l); [|lia].
    induction l as [|x l L]; [lia|]. specialize (IH x). lia.
  - pose proof (IH a); pose proof (IH b); lia.
  - pose proof (IH a); pose proof (IH b); lia.
Qed.
Definition sizes (l : list val) : Z := fold_right (fun x n => size x + n) 0 l.
Lemma size_list : forall i l, size (VList i l) = 1 + sizes l.
Proof. intros i l; unfold sizes; cbn [size]; apply (f_equal (Z.add 1)). induction l as [|x l IH]; [reflexivity|]. cbn [fold_right]. rewrite <- IH; reflexivity. Qed.
Lemma size_tuple : forall i l, size (VTuple i l) = 1 + sizes l.
Proof. intros i l; unfold sizes; cbn [size]; apply (f_equal (Z.add 1)). induction l as [|x l IH]; [reflexivity|]. cbn [fold_right]. rewrite <- IH; reflexivity. Qed.
Lemma sizes_nonneg : forall l, 0 <= sizes l.
Proof. induction l as [|x l IH]; [cbn; lia|]. cbn [sizes fold_right]. fold (sizes l). pose proof (size_pos x). lia. Qed.
Lemma size_child : forall v c, In c (children v) -> size c < size v.
Proof.
  assert (L : forall l c, In c l -> size c <= sizes l).
  { induction l as [|x l IH]; intros c H; [contradiction|]. cbn [sizes fold_right]. fold (sizes l).
    pose proof (size_pos x). pose proof (sizes_nonneg l). destruct H as [H|H]; [subst; lia|]. specialize (IH c H). lia. }
  intros [n|i b|i s|i l|i l|i a b|i a b] c H; cbn [children] in H; try contradiction.
  - rewrite size_list. specialize (L l c H). lia.
  - rewrite size_tuple. specialize (L l c H). lia.
  - cbn [size]. pose proof (size_pos a); pose proof (size_pos b). destruct H as [<-|[<-|[]]]; lia.
  - cbn [size]. pose proof (size_pos a); pose proof (size_pos b). destruct H as [<-|[<-|[]]]; lia.
Qed.

Fixpoint save_items (l : list val) (memo : list nat) : list nat * list ev :=
  match l with
  | [] => (memo, [])
  | x :: l' => let '(m1, e1) := save x memo in let '(m2, e2) := save_items l' m1 in (m2, e1 ++ e2)
  end.
Fixpoint save_batches (n : nat) (l : list val) (memo : list nat) : list nat * list ev :=
  match l with
  | [] => (memo, [Write [APPENDS]])
  | x :: l' =>
      let '(m1, e1) := save x memo in
      let '(m2, e2) := save_batches (if Nat.eqb n BATCHSIZE then 1%nat else S n) l' m1 in
      (m2, (if Nat.eqb n BATCHSIZE then [Write [APPENDS]; Write [MARK]] else []) ++ e1 ++ e2)
  end.
Definition memoised (i : nat) (memo : list nat) (body : list nat * list ev) : list nat * list ev :=
  match find i memo with
  | Some k => (memo, [Boundary; memo_get k])
  | None => let '(m1, e1) := body in (m1 ++ [i], Boundary :: e1 ++ [Write [MEMOIZE]])
  end.
Lemma save_list_eq : forall i l memo, save (VList i l) memo =
  match find i memo with
  | Some k => (memo, [Boundary; memo_get k])
  | None =>
      let '(m1, e1) :=
        match l with
        | [] => (memo ++ [i], [])
        | [x] => let '(m1, e1) := save x (memo ++ [i]) in (m1, e1 ++ [Write [APPEND]])
        | x :: l' => let '(m1, e1) := save_batches 0%nat l (memo ++ [i]) in (m1, Write [MARK] :: e1)
        end in
      (m1, Boundary :: Write [EMPTY_LIST] :: Write [MEMOIZE] :: e1)
  end.
Proof. reflexivity. Qed.
Lemma save_tuple_eq : forall i x l memo, save (VTuple i (x :: l)) memo =
  match find i memo with
  | Some k => (memo, [Boundary; memo_get k])
  | None =>
      let '(m1, e1) := save_items (x :: l) memo in
      (m1 ++ [i],
       Boundary :: (if Nat.leb (length (x :: l)) 3 then [] else [Write [MARK]]) ++ e1 ++
       [Write [match length (x :: l) with 1%nat => TUPLE1 | 2%nat => TUPLE2 | 3%nat => TUPLE3 | _ => TUPLE end]; Write [MEMOIZE]])
  end.
Proof. reflexivity. Qed.
Lemma save_class_eq : forall i m n memo, save (VClass i m n) memo =
  memoised i memo (let '(m1, e1) := save m memo in let '(m2, e2) := save n m1 in (m2, e1 ++ e2 ++ [Write [STACK_GLOBAL]])).
Proof. reflexivity. Qed.
Lemma save_obj_eq : forall i m n memo, save (VObj i m n) memo =
  memoised i memo (let '(m1, e1) := save m memo in let '(m2, e2) := save n m1 in (m2, e1 ++ e2 ++ [Write [NEWOBJ]])).
Proof. reflexivity. Qed.

Lemma find_app : forall i a b, find i (a ++ b) = match find i a with Some k => Some k | None => option_map (Nat.add (length a)) (find i b) end.
Proof.
  intros i a b; induction a as [|x a IH]; cbn; [destruct (find i b); reflexivity|].
  destruct (Nat.eqb i x); [reflexivity|]. rewrite IH. destruct (find i a); [reflexivity|]. destruct (find i b); reflexivity.
Qed.
Lemma find_lt : forall i m k, find i m = Some k -> (k < length m)%nat.
Proof.
  intros i m; induction m as [|x m IH]; intros k H; cbn in *; [discriminate|].
  destruct (Nat.eqb i x); [injection H as <-; lia|]. destruct (find i m); [|discriminate]. injection H as <-. specialize (IH n eq_refl). lia.
Qed.

(** The heap without the lists that are still being filled. *)
Definition mask (O : list nat) (h : list (list pv)) (a : nat) : option (list pv) :=
  if existsb (Nat.eqb a) O then None else nth_error h a.
Definition hle (H H' : nat -> option (list pv)) : Prop := forall a l, H a = Some l -> H' a = Some l.

Lemma denotes_mono : forall H H', hle H H' -> forall v p, denotes H p v -> denotes H' p v.
Proof.
  intros H H' L.
  assert (A : forall n v, size v < Z.of_nat n -> forall p, denotes H p v -> denotes H' p v).
  { induction n as [|n IH]; intros v S p D; [pose proof (size_pos v); lia|].
    assert (F : forall l, sizes l < Z.of_nat n -> forall ps, Forall2 (denotes H) ps l -> Forall2 (denotes H') ps l).
    { intros l SL ps FF; induction FF as [|q x ps l D0 FF IHF]; constructor; cbn [sizes fold_right] in SL; fold (sizes l) in SL.
      - apply IH; [|exact D0]. pose proof (sizes_nonneg l). lia.
      - apply IHF. pose proof (size_pos x). lia. }
    destruct D as [k|i b|i s|a ps i l E FF|ps i l FF|i j m k q|i q ps c a Dc Da].
    - constructor.
    - constructor.
    - constructor.
    - rewrite size_list in S. econstructor; [apply L; exact E|]. apply F; [lia|exact FF].
    - rewrite size_tuple in S. constructor. apply F; [lia|exact FF].
    - constructor.
    - cbn [size] in S. pose proof (size_pos c); pose proof (size_pos a). constructor; apply IH; auto; lia. }
  intros v. apply (A (S (Z.to_nat (size v)))). pose proof (size_pos v). lia.
Qed.
Lemma Forall2_mono : forall H H', hle H H' -> forall ps l, Forall2 (denotes H) ps l -> Forall2 (denotes H') ps l.
Proof. intros H H' L ps l F; induction F; constructor; auto. eapply denotes_mono; eauto. Qed.
Lemma F2_length : forall {A B} (R : A -> B -> Prop) l l', Forall2 R l l' -> length l = length l'.
Proof. intros A B R l l' F; induction F; cbn; auto. Qed.
Lemma hle_trans : forall a b c, hle a b -> hle b c -> hle a c.
Proof. intros a b c A B x l E. auto. Qed.
Lemma hle_refl : forall a, hle a a. Proof. intros a x l E; exact E. Qed.

Lemma mask_in : forall a O h, In a O -> mask O h a = None.
Proof.
  intros a O h I. unfold mask. destruct (existsb (Nat.eqb a) O) eqn:E; [reflexivity|].
  exfalso. assert (existsb (Nat.eqb a) O = true) by (apply existsb_exists; exists a; split; [exact I|apply Nat.eqb_refl]). congruence.
Qed.
Lemma mask_out : forall a O h, ~ In a O -> mask O h a = nth_error h a.
Proof.
  intros a O h I. unfold mask. destruct (existsb (Nat.eqb a) O) eqn:E; [|reflexivity].
  exfalso. apply existsb_exists in E. destruct E as [x [X Y]]. apply Nat.eqb_eq in Y. subst. contradiction.
Qed.
Lemma mask_inv : forall O h a l, mask O h a = Some l -> ~ In a O /\ nth_error h a = Some l.
Proof.
  intros O h a l E. destruct (in_dec Nat.eq_dec a O) as [I|I]; [rewrite mask_in in E by exact I; discriminate|].
  rewrite mask_out in E by exact I. auto.
Qed.

Lemma upd_same : forall h a l x, nth_error h a = Some x -> nth_error (upd h a l) a = Some l.
Proof. induction h as [|y h IH]; intros [|a] l x E; cbn in *; try discriminate; [reflexivity|eauto]. Qed.
Lemma upd_other : forall h a b l, a <> b -> nth_error (upd h a l) b = nth_error h b.
Proof. induction h as [|y h IH]; intros [|a] [|b] l N; cbn; auto; try congruence. Qed.
Lemma upd_length : forall h a l, length (upd h a l) = length h.
Proof. induction h as [|y h IH]; intros [|a] l; cbn; auto. Qed.
Lemma mask_upd : forall O h a l, In a O -> hle (mask O h) (mask O (upd h a l)).
Proof.
  intros O h a l I b x E. apply mask_inv in E. destruct E as [N E]. rewrite mask_out by exact N.
  rewrite upd_other; [exact E|]. intros ->; contradiction.
Qed.

Lemma sub_trans_child : forall a b c, sub a b -> In c (children b) -> sub a c.
Proof. intros a b c H; induction H; intros I; [eapply sub_child; [exact I|constructor]|]. eapply sub_child; eauto. Qed.

Section Root.
Variable r : val.
Hypothesis W : wf r.

Definition inv (memo P : list nat) (um : list pv) (H : nat -> option (list pv)) : Prop :=
  length memo = length um /\
  forall i k, find i memo = Some k -> In i P \/
    forall v, sub r v -> ident v = Some i -> exists p, nth_error um k = Some p /\ denotes H p v.
Definition opened (P : list nat) (t : val) : Prop :=
  forall x i, sub r x -> ident x = Some i -> In i P -> size t < size x.

Lemma inv_mono : forall memo P um H H', hle H H' -> inv memo P um H -> inv memo P um H'.
Proof.
  intros memo P um H H' L [A B]. split; [exact A|]. intros i k F. destruct (B i k F) as [Q|Q]; [left; exact Q|right].
  intros v S I. destruct (Q v S I) as [p [E D]]. exists p; split; [exact E|]. eapply denotes_mono; eauto.
Qed.
Lemma nth_grow : forall {A} (l l' : list A) k x, nth_error l k = Some x -> nth_error (l ++ l') k = Some x.
Proof. intros A l l' k x E. rewrite nth_error_app1; [exact E|]. apply nth_error_Some. congruence. Qed.
Lemma inv_snoc : forall memo P um H v i p, inv memo P um H -> sub r v -> ident v = Some i -> denotes H p v ->
  inv (memo ++ [i]) P (um ++ [p]) H.
Proof.
  intros memo P um H v i p [A B] S I D. split; [rewrite !app_length, A; reflexivity|].
  intros j k F. rewrite find_app in F. destruct (find j memo) as [k'|] eqn:E.
  - injection F as <-. destruct (B j k' E) as [Q|Q]; [left; exact Q|right]. intros v' S' I'. destruct (Q v' S' I') as [q [E' D']].
    exists q; split; [apply nth_grow; exact E'|exact D'].
  - cbn in F. destruct (Nat.eqb_spec j i) as [->|]; [|discriminate]. injection F as <-. right. intros v' S' I'.
    assert (v' = v) by (apply (proj1 (proj2 W) v' v i); auto). subst v'. exists p. split; [|exact D].
    rewrite A, Nat.add_0_r, nth_error_app2, Nat.sub_diag by lia. reflexivity.
Qed.
Lemma inv_open : forall memo P um H i p, inv memo P um H -> inv (memo ++ [i]) (i :: P) (um ++ [p]) H.
Proof.
  intros memo P um H i p [A B]. split; [rewrite !app_length, A; reflexivity|].
  intros j k F. rewrite find_app in F. destruct (find j memo) as [k'|] eqn:E.
  - injection F as <-. destruct (B j k' E) as [Q|Q]; [left; right; exact Q|right]. intros v' S' I'. destruct (Q v' S' I') as [q [E' D']].
    exists q; split; [apply nth_grow; exact E'|exact D'].
  - cbn in F. destruct (Nat.eqb_spec j i) as [->|]; [left; left; reflexivity|discriminate].
Qed.

(** What saving does to the state, apart from the stack. *)
Definition done (P O K : list nat) (memo : list nat) (s : mstate) (memo' : list nat) (s' : mstate) : Prop :=
  inv memo' P (umemo s') (mask O (heap s')) /\ hle (mask O (heap s)) (mask O (heap s')) /\
  (forall a, In a K -> nth_error (heap s') a = nth_error (heap s) a) /\
  (length (heap s) <= length (heap s'))%nat /\
  (exists t, memo' = memo ++ t) /\ (exists t, umemo s' = umemo s ++ t).
Lemma done_trans : forall P O K m s m1 s1 m2 s2, done P O K m s m1 s1 -> done P O K m1 s1 m2 s2 -> done P O K m s m2 s2.
Proof.
  intros P O K m s m1 s1 m2 s2 [A1 [A2 [A3 [A4 [[t1 A5] [u1 A6]]]]]] [B1 [B2 [B3 [B4 [[t2 B5] [u2 B6]]]]]].
  split; [exact B1|]. split; [eapply hle_trans; eauto|]. split; [intros a I; rewrite B3, A3; auto|]. split; [lia|]. split.
  - exists (t1 ++ t2). subst. rewrite app_assoc. reflexivity.
  - exists (u1 ++ u2). rewrite B6, A6, app_assoc. reflexivity.
Qed.
Lemma done_refl : forall P O K m s s', umemo s' = umemo s -> heap s' = heap s -> inv m P (umemo s) (mask O (heap s)) -> done P O K m s m s'.
Proof.
  intros P O K m s s' U H I. unfold done. rewrite U, H. split; [exact I|]. split; [apply hle_refl|]. split; [reflexivity|]. split; [lia|].
  split; exists []; rewrite app_nil_r; reflexivity.
Qed.

Definition saves (v : val) : Prop := forall P O memo s memo' evs,
  sub r v -> opened P v -> inv memo P (umemo s) (mask O (heap s)) -> (forall a, In a O -> (a < length (heap s))%nat) ->
  Z.of_nat (length memo) + size v < 2 ^ 32 -> save v memo = (memo', evs) ->
  exists s' p, sems s (chunks evs) s' /\ stack s' = IVal p :: stack s /\ denotes (mask O (heap s')) p v /\
    done P O O memo s memo' s' /\ Z.of_nat (length memo') <= Z.of_nat (length memo) + size v.

(** An object that is in the memo already. *)
Lemma saves_hit : forall v i k P O memo s,
  sub r v -> opened P v -> inv memo P (umemo s) (mask O (heap s)) -> ident v = Some i -> find i memo = Some k ->
  Z.of_nat (length memo) + size v < 2 ^ 32 ->
  exists s' p, sems s (chunks [Boundary; memo_get k]) s' /\ stack s' = IVal p :: stack s /\ denotes (mask O (heap s')) p v /\
    done P O O memo s memo s' /\ Z.of_nat (length memo) <= Z.of_nat (length memo) + size v.
Proof.
  intros v i k P O memo [st u h] S Op I Id F Sz. pose proof (size_pos v). pose proof (find_lt _ _ _ F).
  destruct (proj2 I i k F) as [Q|Q]; [specialize (Op v i S Id Q); lia|].
  destruct (Q v S Id) as [p [E D]]. exists (mkM (IVal p :: st) u h), p. cbn [stack umemo heap] in *.
  split; [|split; [reflexivity|split; [exact D|split; [apply done_refl; [reflexivity|reflexivity|exact I]|lia]]]].
  unfold chunks. cbn [flat_map app chunk]. rewrite app_nil_r. fold (chunk (memo_get k)). apply sem_get; [exact E|lia].
Qed.

(** An object that is written and then memoised. *)
Lemma saves_memo : forall v i P O memo s m1 e1 s1 p,
  sub r v -> ident v = Some i ->
  sems s (chunks e1) s1 -> stack s1 = IVal p :: stack s -> denotes (mask O (heap s1)) p v -> done P O O memo s m1 s1 ->
  Z.of_nat (length m1) <= Z.of_nat (length memo) + size v - 1 ->
  exists s' p, sems s (chunks (Boundary :: e1 ++ [Write [MEMOIZE]])) s' /\ stack s' = IVal p :: stack s /\ denotes (mask O (heap s')) p v /\
    done P O O memo s (m1 ++ [i]) s' /\ Z.of_nat (length (m1 ++ [i])) <= Z.of_nat (length memo) + size v.
Proof.
  intros v i P O memo s m1 e1 [st1 u1 h1] p S Id H E D Dn Sz. cbn [stack heap umemo] in *. subst st1.
  exists (mkM (IVal p :: stack s) (u1 ++ [p]) h1), p. cbn [stack heap].
  split; [|split; [reflexivity|split; [exact D|split; [|rewrite app_length; cbn; lia]]]].
  - unfold chunks. cbn [flat_map chunk app]. fold (chunks (e1 ++ [Write [MEMOIZE]])). rewrite chunks_app.
    eapply sems_app; [exact H|]. apply sems_one. apply sem_memoize.
  - destruct Dn as [A1 [A2 [A3 [A4 [[t A5] [u A6]]]]]]. cbn [umemo heap] in *. split; [|split; [exact A2|split; [exact A3|split; [exact A4|split]]]].
    + eapply inv_snoc; eauto.
    + exists (t ++ [i]). subst m1. rewrite app_assoc. reflexivity.
    + exists (u ++ [p]). subst u1. rewrite app_assoc. reflexivity.
Qed.

Lemma opened_child : forall P v c, opened P v -> In c (children v) -> opened P c.
Proof. intros P v c O I x i S Id J. specialize (O x i S Id J). pose proof (size_child v c I). lia. Qed.

Lemma saves_items : forall l, (forall x, In x l -> saves x) -> forall P O memo s memo' evs,
  (forall x, In x l -> sub r x /\ opened P x) -> inv memo P (umemo s) (mask O (heap s)) -> (forall a, In a O -> (a < length (heap s))%nat) ->
  Z.of_nat (length memo) + sizes l < 2 ^ 32 -> save_items l memo = (memo', evs) ->
  exists s' ps, sems s (chunks evs) s' /\ stack s' = rev (map IVal ps) ++ stack s /\ Forall2 (denotes (mask O (heap s'))) ps l /\
    done P O O memo s memo' s' /\ Z.of_nat (length memo') <= Z.of_nat (length memo) + sizes l.
Proof.
  induction l as [|x l IH]; intros SX P O memo s memo' evs SO I OL Sz E; cbn [save_items] in E.
  - injection E as <- <-. exists s, []. cbn [chunks flat_map map rev app sems sizes fold_right].
    split; [reflexivity|]. split; [reflexivity|]. split; [constructor|]. split; [apply done_refl; [reflexivity|reflexivity|exact I]|lia].
  - destruct (save x memo) as [m1 e1] eqn:E1. destruct (save_items l m1) as [m2 e2] eqn:E2. injection E as <- <-.
    cbn [sizes fold_right] in Sz. fold (sizes l) in Sz. pose proof (sizes_nonneg l).
    destruct (SX x (or_introl eq_refl) P O memo s m1 e1) as [s1 [p [A1 [A2 [A3 [A4 A5]]]]]]; auto;
      [apply SO; left; reflexivity|apply SO; left; reflexivity|lia|].
    pose proof A4 as [B1 [_ [_ [B2 _]]]].
    destruct (IH (fun y Y => SX y (or_intror Y)) P O m1 s1 m2 e2) as [s2 [ps [C1 [C2 [C3 [C4 C5]]]]]]; auto;
      [intros y Y; apply SO; right; exact Y|intros a J; specialize (OL a J); lia|lia|].
    exists s2, (p :: ps). split; [rewrite chunks_app; eapply sems_app; eauto|]. split.
    + rewrite C2, A2. cbn [map rev]. rewrite <- app_assoc. reflexivity.
    + split; [|split; [eapply done_trans; eauto|cbn [sizes fold_right]; fold (sizes l); lia]].
      constructor; [|exact C3]. eapply denotes_mono; [|exact A3]. apply C4.
Qed.

Lemma saves_batches : forall l, (forall x, In x l -> saves x) -> forall P O a memo st acc open u h n memo' evs,
  (forall x, In x l -> sub r x /\ opened P x) -> inv memo P u (mask (a :: O) h) ->
  (forall b, In b (a :: O) -> (b < length h)%nat) -> ~ In a O -> nth_error h a = Some acc ->
  Z.of_nat (length memo) + sizes l < 2 ^ 32 -> save_batches n l memo = (memo', evs) ->
  exists u' h' ps, sems (mkM (rev (map IVal open) ++ IMark :: IVal (PListRef a) :: st) u h) (chunks evs) (mkM (IVal (PListRef a) :: st) u' h') /\
    nth_error h' a = Some (acc ++ open ++ ps) /\ Forall2 (denotes (mask (a :: O) h')) ps l /\
    (forall s0 s0', umemo s0 = u -> heap s0 = h -> umemo s0' = u' -> heap s0' = h' -> done P (a :: O) O memo s0 memo' s0') /\
    Z.of_nat (length memo') <= Z.of_nat (length memo) + sizes l.
Proof.
  induction l as [|x l IH]; intros SX P O a memo st acc open u h n memo' evs SO I OL NO EA Sz E; cbn [save_batches] in E.
  - injection E as <- <-. exists u, (upd h a (acc ++ open)), []. cbn [chunks flat_map chunk app].
    split; [apply sems_one, sem_appends; exact EA|]. split; [rewrite app_nil_r; eapply upd_same; eauto|].
    split; [constructor|]. split; [|cbn; lia].
    intros s0 s0' <- <- U' H'. split; [|split; [|split; [|split; [|split]]]]; rewrite ?U', ?H'.
    + eapply inv_mono; [|exact I]. apply mask_upd; left; reflexivity.
    + apply mask_upd; left; reflexivity.
    + intros b B. apply upd_other. intros ->; contradiction.
    + rewrite upd_length; lia.
    + exists []; rewrite app_nil_r; reflexivity.
    + exists []; rewrite app_nil_r; reflexivity.
  - destruct (save x memo) as [m1 e1] eqn:E1.
    destruct (save_batches (if Nat.eqb n BATCHSIZE then 1%nat else S n) l m1) as [m2 e2] eqn:E2. injection E as <- <-.
    cbn [sizes fold_right] in Sz. fold (sizes l) in Sz. pose proof (sizes_nonneg l).
    (* the state after a batch may have been finished *)
    assert (Pre : exists acc1 open1 h1,
      sems (mkM (rev (map IVal open) ++ IMark :: IVal (PListRef a) :: st) u h)
           (chunks (if Nat.eqb n BATCHSIZE then [Write [APPENDS]; Write [MARK]] else []))
           (mkM (rev (map IVal open1) ++ IMark :: IVal (PListRef a) :: st) u h1) /\
      nth_error h1 a = Some acc1 /\ acc1 ++ open1 = acc ++ open /\ hle (mask (a :: O) h) (mask (a :: O) h1) /\
      (forall b, In b O -> nth_error h1 b = nth_error h b) /\ length h1 = length h).
    { destruct (Nat.eqb n BATCHSIZE).
      - exists (acc ++ open), [], (upd h a (acc ++ open)). cbn [chunks flat_map chunk app map rev sems].
        split; [|split; [eapply upd_same; eauto|split; [apply app_nil_r|split; [apply mask_upd; left; reflexivity|split; [|apply upd_length]]]]].
        + eexists; split; [apply sem_appends; exact EA|]. eexists; split; [apply sem_mark|reflexivity].
        + intros b B. apply upd_other. intros ->; contradiction.
      - exists acc, open, h. cbn [chunks flat_map sems]. repeat split; auto. apply hle_refl. }
    destruct Pre as [acc1 [open1 [h1 [S1 [EA1 [EQ [L1 [K1 LH]]]]]]]].
    set (s1 := mkM (rev (map IVal open1) ++ IMark :: IVal (PListRef a) :: st) u h1) in *.
    destruct (SX x (or_introl eq_refl) P (a :: O) memo s1 m1 e1) as [s2 [p [A1 [A2 [A3 [A4 A5]]]]]]; auto;
      [apply SO; left; reflexivity|apply SO; left; reflexivity|eapply inv_mono; eauto|intros b B; cbn [s1 heap]; rewrite LH; apply OL; exact B|lia|].
    destruct s2 as [st2 u2 h2]. cbn [stack umemo heap s1] in *. subst st2.
    pose proof A4 as [B1 [B2 [B3 [B4 [B5 B6]]]]]. cbn [umemo heap s1] in *.
    destruct (IH (fun y Y => SX y (or_intror Y)) P O a m1 st acc1 (open1 ++ [p]) u2 h2 (if Nat.eqb n BATCHSIZE then 1%nat else S n) m2 e2) as [u3 [h3 [ps [C1 [C2 [C3 [C4 C5]]]]]]].
    + intros y Y; apply SO; right; exact Y.
    + exact B1.
    + intros b B; specialize (OL b B). lia.
    + exact NO.
    + rewrite B3 by (left; reflexivity). exact EA1.
    + lia.
    + exact E2.
    + exists u3, h3, (p :: ps). split; [|split; [|split; [|split]]].
      * rewrite !chunks_app. eapply sems_app; [exact S1|]. eapply sems_app; [exact A1|].
        rewrite map_app, rev_app_distr in C1. exact C1.
      * rewrite C2. f_equal. rewrite <- app_assoc, app_assoc, EQ, <- app_assoc. reflexivity.
      * constructor; [|exact C3]. eapply denotes_mono; [|exact A3].
        apply (C4 (mkM [] u2 h2) (mkM [] u3 h3)); reflexivity.
      * intros s0 s0' U0 H0 U3 H3. subst u h.
        destruct (C4 (mkM [] u2 h2) s0' eq_refl eq_refl U3 H3) as [D1 [D2 [D3 [D4 [D5 D6]]]]]. cbn [umemo heap] in *.
        split; [exact D1|]. split; [eapply hle_trans; [exact L1|eapply hle_trans; eauto]|]. split.
        -- intros b B. rewrite D3 by exact B. rewrite B3 by (right; exact B). apply K1; exact B.
        -- split; [lia|]. split.
           ++ destruct B5 as [t1 ->], D5 as [t2 ->]. exists (t1 ++ t2). rewrite app_assoc; reflexivity.
           ++ destruct B6 as [t1 ->], D6 as [t2 ->]. exists (t1 ++ t2). rewrite app_assoc; reflexivity.
      * cbn [sizes fold_right]. fold (sizes l). lia.
Qed.

Lemma saves_all : forall n v, size v < Z.of_nat n -> saves v.
Proof.
  induction n as [|n IH]; intros v S; [pose proof (size_pos v); lia|].
  assert (CH : forall c, In c (children v) -> saves c).
  { intros c C. apply IH. pose proof (size_child v c C). lia. }
  intros P O memo s memo' evs Sv Op I OL Sz E. pose proof (proj1 W v Sv) as Loc.
  assert (CS : forall c, In c (children v) -> sub r c /\ opened P c).
  { intros c C. split; [eapply sub_trans_child; eauto|eapply opened_child; eauto]. }
  destruct v as [k|i b|i b|i l|i l|i a b|i a b].
  - cbn in E. injection E as <- <-. destruct s as [st u h]. exists (mkM (IVal (PInt k) :: st) u h), (PInt k).
    split; [|split; [reflexivity|split; [constructor|split; [apply done_refl; [reflexivity|reflexivity|exact I]|cbn [size]; lia]]]].
    unfold chunks; cbn [flat_map app]. rewrite app_nil_r. cbn [chunk app]. fold (chunk (save_int k)). apply sem_int. exact Loc.
  - change (save (VBytes i b) memo) with (memoised i memo (memo, [save_data SHORT_BINBYTES BINBYTES BINBYTES8 b])) in E.
    unfold memoised in E. destruct (find i memo) as [k|] eqn:F.
    + injection E as <- <-. eapply saves_hit; eauto. reflexivity.
    + injection E as <- <-. destruct s as [st u h].
      eapply (saves_memo (VBytes i b) i P O memo (mkM st u h) memo [save_data SHORT_BINBYTES BINBYTES BINBYTES8 b] (mkM (IVal (PBytes b) :: st) u h) (PBytes b)); auto.
      * unfold chunks; cbn [flat_map]. rewrite app_nil_r. apply sem_bytes. exact Loc.
      * constructor.
      * apply done_refl; [reflexivity|reflexivity|exact I].
      * cbn [size]; lia.
  - change (save (VStr i b) memo) with (memoised i memo (memo, [save_data SHORT_BINUNICODE BINUNICODE BINUNICODE8 b])) in E.
    unfold memoised in E. destruct (find i memo) as [k|] eqn:F.
    + injection E as <- <-. eapply saves_hit; eauto. reflexivity.
    + injection E as <- <-. destruct s as [st u h].
      eapply (saves_memo (VStr i b) i P O memo (mkM st u h) memo [save_data SHORT_BINUNICODE BINUNICODE BINUNICODE8 b] (mkM (IVal (PStr b) :: st) u h) (PStr b)); auto.
      * unfold chunks; cbn [flat_map]. rewrite app_nil_r. apply sem_str. exact Loc.
      * constructor.
      * apply done_refl; [reflexivity|reflexivity|exact I].
      * cbn [size]; lia.
  - (* list *)
    rewrite save_list_eq in E. destruct (find i memo) as [k|] eqn:F.
    { injection E as <- <-. eapply saves_hit; eauto. reflexivity. }
    rewrite size_list in *. destruct s as [st u h]. cbn [stack umemo heap] in *.
    set (a := length h).
    assert (NO : ~ In a O) by (intro Q; specialize (OL a Q); unfold a in OL; lia).
    assert (L1 : hle (mask O h) (mask (a :: O) (h ++ [[]]))).
    { intros b x Q. apply mask_inv in Q. destruct Q as [Q1 Q2].
      assert (b < length h)%nat by (apply nth_error_Some; congruence).
      rewrite mask_out; [apply nth_grow; exact Q2|]. intros [Q|Q]; [unfold a in Q; lia|contradiction]. }
    assert (I1 : inv (memo ++ [i]) (i :: P) (u ++ [PListRef a]) (mask (a :: O) (h ++ [[]]))).
    { apply inv_open. eapply inv_mono; eauto. }
    assert (Start : sems (mkM st u h) [[EMPTY_LIST]; [MEMOIZE]] (mkM (IVal (PListRef a) :: st) (u ++ [PListRef a]) (h ++ [[]]))).
    { cbn [sems]. eexists; split; [apply sem_empty_list|]. eexists; split; [apply sem_memoize|reflexivity]. }
    assert (OL1 : forall b, In b (a :: O) -> (b < length (h ++ [[]]))%nat).
    { intros b [<-|B]; rewrite app_length; cbn; [unfold a; lia|specialize (OL b B); lia]. }
    assert (SO1 : forall x, In x l -> sub r x /\ opened (i :: P) x).
    { intros x X. destruct (CS x X) as [C1 C2]. split; [exact C1|]. intros y j Sy Iy [<-|J]; [|apply (C2 y j); auto].
      assert (y = VList i l) by (apply (proj1 (proj2 W) y (VList i l) i); auto). subst y.
      apply (size_child (VList i l) x X). }
    assert (EA : nth_error (h ++ [[]]) a = Some []) by (unfold a; rewrite nth_error_app2, Nat.sub_diag by lia; reflexivity).
    (* what is left after the elements have been put in *)
    assert (Finish : forall m1 u1 h1 ps e1,
      sems (mkM (IVal (PListRef a) :: st) (u ++ [PListRef a]) (h ++ [[]])) (chunks e1) (mkM (IVal (PListRef a) :: st) u1 h1) ->
      nth_error h1 a = Some ps -> Forall2 (denotes (mask (a :: O) h1)) ps l ->
      done (i :: P) (a :: O) O (memo ++ [i]) (mkM [] (u ++ [PListRef a]) (h ++ [[]])) m1 (mkM [] u1 h1) ->
      Z.of_nat (length m1) <= Z.of_nat (length (memo ++ [i])) + sizes l ->
      exists s' p, sems (mkM st u h) (chunks (Boundary :: Write [EMPTY_LIST] :: Write [MEMOIZE] :: e1)) s' /\ stack s' = IVal p :: st /\
        denotes (mask O (heap s')) p (VList i l) /\ done P O O memo (mkM st u h) m1 s' /\ Z.of_nat (length m1) <= Z.of_nat (length memo) + (1 + sizes l)).
    { intros m1 u1 h1 ps e1 H1 E1 F1 [D1 [D2 [D3 [D4 [[t D5] [w D6]]]]]] Z1. cbn [umemo heap] in *.
      assert (L2 : hle (mask (a :: O) h1) (mask O h1)).
      { intros b x Q. apply mask_inv in Q. destruct Q as [Q1 Q2]. rewrite mask_out; [exact Q2|]. intro Q; apply Q1; right; exact Q. }
      assert (DV : denotes (mask O h1) (PListRef a) (VList i l)).
      { econstructor; [rewrite mask_out by exact NO; exact E1|]. eapply Forall2_mono; eauto. }
      exists (mkM (IVal (PListRef a) :: st) u1 h1), (PListRef a). cbn [stack heap].
      split; [|split; [reflexivity|split; [exact DV|split]]].
      - change (chunks (Boundary :: Write [EMPTY_LIST] :: Write [MEMOIZE] :: e1)) with ([[EMPTY_LIST]; [MEMOIZE]] ++ chunks e1).
        eapply sems_app; eauto.
      - split; [|split; [|split; [|split; [|split]]]]; cbn [umemo heap].
        + destruct D1 as [G1 G2]. split; [exact G1|]. intros j k Fj. destruct (Nat.eq_dec j i) as [->|NE].
          * right. intros v' S' I'. assert (v' = VList i l) by (apply (proj1 (proj2 W) v' (VList i l) i); auto). subst v'.
            exists (PListRef a). split; [|exact DV].
            rewrite D5, !find_app, F in Fj. cbn in Fj. rewrite Nat.eqb_refl in Fj. cbn in Fj. injection Fj as <-.
            rewrite D6. apply nth_grow. rewrite (proj1 I), Nat.add_0_r, nth_error_app2, Nat.sub_diag by lia. reflexivity.
          * destruct (G2 j k Fj) as [[Q|Q]|Q]; [congruence|left; exact Q|right].
            intros v' S' I'. destruct (Q v' S' I') as [q [Q1 Q2]]. exists q; split; [exact Q1|]. eapply denotes_mono; eauto.
        + eapply hle_trans; [exact L1|]. eapply hle_trans; [exact D2|exact L2].
        + intros b B. rewrite D3 by exact B. rewrite nth_error_app1 by (apply OL; exact B). reflexivity.
        + rewrite app_length in D4; cbn in D4; lia.
        + exists ([i] ++ t). rewrite D5, <- app_assoc. reflexivity.
        + exists ([PListRef a] ++ w). rewrite D6, <- app_assoc. reflexivity.
      - rewrite app_length in Z1; cbn in Z1; lia. }
    destruct l as [|x [|y l]].
    + injection E as <- <-. eapply (Finish _ _ _ []); [reflexivity|exact EA|constructor| |cbn; lia].
      split; [exact I1|]. split; [apply hle_refl|]. split; [reflexivity|]. split; [cbn; lia|]. split; exists []; rewrite app_nil_r; reflexivity.
    + destruct (save x (memo ++ [i])) as [m1 e1] eqn:E1. injection E as <- <-.
      cbn [sizes fold_right] in *.
      destruct (CH x (or_introl eq_refl) (i :: P) (a :: O) (memo ++ [i]) (mkM (IVal (PListRef a) :: st) (u ++ [PListRef a]) (h ++ [[]])) m1 e1)
        as [[st2 u2 h2] [p [A1 [A2 [A3 [A4 A5]]]]]]; auto.
      * apply SO1; left; reflexivity.
      * apply SO1; left; reflexivity.
      * rewrite app_length; cbn; lia.
      * cbn [stack heap] in *. subst st2. pose proof A4 as [B1 [B2 [B3 [B4 [B5 B6]]]]]. cbn [umemo heap] in *.
        assert (EA2 : nth_error h2 a = Some []) by (rewrite B3 by (left; reflexivity); exact EA).
        eapply (Finish m1 u2 (upd h2 a ([] ++ [p])) [p]).
        -- rewrite chunks_app. eapply sems_app; [exact A1|]. apply sems_one. apply sem_append. exact EA2.
        -- eapply upd_same; eauto.
        -- constructor; [|constructor]. eapply denotes_mono; [|exact A3]. apply mask_upd; left; reflexivity.
        -- split; [|split; [|split; [|split; [|split]]]]; cbn [umemo heap].
           ++ eapply inv_mono; [|exact B1]. apply mask_upd; left; reflexivity.
           ++ eapply hle_trans; [exact B2|]. apply mask_upd; left; reflexivity.
           ++ intros b B. rewrite upd_other by (intros <-; contradiction). apply B3; right; exact B.
           ++ rewrite upd_length; exact B4.
           ++ exact B5.
           ++ exact B6.
        -- lia.
    + destruct (save_batches 0 (x :: y :: l) (memo ++ [i])) as [m1 e1] eqn:E1. injection E as <- <-.
      destruct (saves_batches (x :: y :: l) CH (i :: P) O a (memo ++ [i]) st [] [] (u ++ [PListRef a]) (h ++ [[]]) 0 m1 e1 SO1 I1 OL1 NO EA)
        as [u2 [h2 [ps [A1 [A2 [A3 [A4 A5]]]]]]]; auto.
      { rewrite app_length; cbn [length]; lia. }
      eapply (Finish m1 u2 h2 ps (Write [MARK] :: e1)); auto.
      change (chunks (Write [MARK] :: e1)) with ([[MARK]] ++ chunks e1).
      eapply sems_app; [apply sems_one, sem_mark|]. exact A1.
  - (* tuple *)
    destruct l as [|x l].
    { cbn in E. injection E as <- <-. destruct s as [st u h]. exists (mkM (IVal (PTuple []) :: st) u h), (PTuple []).
      split; [apply sems_one, sem_empty_tuple|]. split; [reflexivity|]. split; [constructor; constructor|].
      split; [apply done_refl; [reflexivity|reflexivity|exact I]|cbn [size]; lia]. }
    rewrite save_tuple_eq in E. destruct (find i memo) as [k|] eqn:F.
    { injection E as <- <-. eapply saves_hit; eauto. reflexivity. }
    destruct (save_items (x :: l) memo) as [m1 e1] eqn:E1. rewrite size_tuple in *.
    set (T := [Write [match length (x :: l) with 1%nat => TUPLE1 | 2%nat => TUPLE2 | 3%nat => TUPLE3 | _ => TUPLE end]]) in *.
    set (B := if Nat.leb (length (x :: l)) 3 then [] else [Write [MARK]]) in *.
    assert (EM : m1 ++ [i] = memo') by exact (f_equal fst E).
    assert (EV : Boundary :: (B ++ e1 ++ T) ++ [Write [MEMOIZE]] = evs).
    { rewrite <- (f_equal snd E : _ = evs). cbn [snd]. rewrite <- !app_assoc. reflexivity. }
    clear E. subst memo' evs.
    set (long := negb (Nat.leb (length (x :: l)) 3)).
    set (st0 := if long then IMark :: stack s else stack s).
    destruct (saves_items (x :: l) CH P O memo (mkM st0 (umemo s) (heap s)) m1 e1) as [[st1 u1 h1] [ps [A1 [A2 [A3 [A4 A5]]]]]]; auto; [lia|].
    cbn [stack heap] in A2, A3. subst st1.
    assert (LP : length ps = length (x :: l)) by (eapply F2_length; eauto).
    assert (FIN : sems (mkM (rev (map IVal ps) ++ st0) u1 h1) (chunks T)
                       (mkM (IVal (PTuple ps) :: stack s) u1 h1)).
    { unfold T, st0, long. cbn [chunks flat_map chunk app]. apply sems_one. rewrite <- LP.
      destruct ps as [|p1 [|p2 [|p3 [|p4 ps]]]]; [discriminate|apply sem_tuple1|apply sem_tuple2|apply sem_tuple3|].
      cbn [length Nat.leb negb]. apply (sem_tuple (p1 :: p2 :: p3 :: p4 :: ps)). }
    assert (BEG : sems s (chunks B) (mkM st0 (umemo s) (heap s))).
    { unfold B, st0, long. destruct s as [st u h]. destruct (Nat.leb (length (x :: l)) 3); [reflexivity|]. apply sems_one, sem_mark. }
    rewrite <- (size_tuple i).
    eapply (saves_memo (VTuple i (x :: l)) i P O memo s m1 _ (mkM (IVal (PTuple ps) :: stack s) u1 h1) (PTuple ps)); auto.
    + rewrite !chunks_app. eapply sems_app; [exact BEG|]. eapply sems_app; [exact A1|]. exact FIN.
    + constructor. exact A3.
    + rewrite size_tuple. lia.
  - (* class *)
    rewrite save_class_eq in E. unfold memoised in E. destruct (find i memo) as [k|] eqn:F.
    { injection E as <- <-. eapply saves_hit; eauto. reflexivity. }
    destruct (save a memo) as [m1 e1] eqn:E1. destruct (save b m1) as [m2 e2] eqn:E2. injection E as <- <-. cbn [size] in Sz.
    pose proof (size_pos a); pose proof (size_pos b).
    destruct (CH a (or_introl eq_refl) P O memo s m1 e1) as [s1 [p [A1 [A2 [A3 [A4 A5]]]]]]; auto;
      [apply CS; left; reflexivity|apply CS; left; reflexivity|lia|].
    pose proof A4 as [B1 [_ [_ [B2 _]]]].
    destruct (CH b (or_intror (or_introl eq_refl)) P O m1 s1 m2 e2) as [s2 [q [C1 [C2 [C3 [C4 C5]]]]]]; auto;
      [apply CS; right; left; reflexivity|apply CS; right; left; reflexivity|intros c C; specialize (OL c C); lia|lia|].
    destruct Loc as [[j1 [w1 ->]] [j2 [w2 ->]]]. inversion A3; subst. inversion C3; subst.
    destruct s2 as [st2 u2 h2]. cbn [stack heap] in *. rewrite A2 in C2. subst st2.
    eapply (saves_memo (VClass i (VStr j1 w1) (VStr j2 w2)) i P O memo s m2 _ (mkM (IVal (PClass w1 w2) :: stack s) u2 h2) (PClass w1 w2)); auto.
    + rewrite !chunks_app. eapply sems_app; [exact A1|]. eapply sems_app; [exact C1|]. apply sems_one, sem_global.
    + constructor.
    + eapply done_trans; eauto.
    + cbn [size] in *; lia.
  - (* object *)
    rewrite save_obj_eq in E. unfold memoised in E. destruct (find i memo) as [k|] eqn:F.
    { injection E as <- <-. eapply saves_hit; eauto. reflexivity. }
    destruct (save a memo) as [m1 e1] eqn:E1. destruct (save b m1) as [m2 e2] eqn:E2. injection E as <- <-. cbn [size] in Sz.
    pose proof (size_pos a); pose proof (size_pos b).
    destruct (CH a (or_introl eq_refl) P O memo s m1 e1) as [s1 [p [A1 [A2 [A3 [A4 A5]]]]]]; auto;
      [apply CS; left; reflexivity|apply CS; left; reflexivity|lia|].
    pose proof A4 as [B1 [_ [_ [B2 _]]]].
    destruct (CH b (or_intror (or_introl eq_refl)) P O m1 s1 m2 e2) as [s2 [q [C1 [C2 [C3 [C4 C5]]]]]]; auto;
      [apply CS; right; left; reflexivity|apply CS; right; left; reflexivity|intros c C; specialize (OL c C); lia|lia|].
    destruct Loc as [[j1 [w1 [w1' ->]]] [j2 [w2 ->]]]. inversion A3; subst. inversion C3; subst.
    destruct s2 as [st2 u2 h2]. cbn [stack heap] in *. rewrite A2 in C2. subst st2.
    eapply (saves_memo (VObj i (VClass j1 (VStr j m) (VStr k n0)) (VTuple j2 w2)) i P O memo s m2 _
              (mkM (IVal (PObj (PClass m n0) ps) :: stack s) u2 h2) (PObj (PClass m n0) ps)); auto.
    + rewrite !chunks_app. eapply sems_app; [exact A1|]. eapply sems_app; [exact C1|]. apply sems_one, sem_newobj.
    + constructor; [constructor|exact C3].
    + eapply done_trans; eauto.
    + cbn [size] in *; lia.
Qed.
End Root.

(** * Theorems *)

(** Reading the file gives back the object, whatever is shared inside of it. *)
Theorem C90_roundtrip : forall v, wf v ->
  exists p h, loads (dumps v) = Ok (p, h) /\ denotes (nth_error h) p v.
Proof.
  intros v W. destruct (save v []) as [memo evs] eqn:E.
  destruct (saves_all v W (S (Z.to_nat (size v))) v ltac:(pose proof (size_pos v); lia) [] [] [] (mkM [] [] []) memo evs)
    as [s' [p [A1 [A2 [A3 [A4 A5]]]]]]; auto.
  - constructor.
  - intros x i _ _ [].
  - split; [reflexivity|]. intros i k F; discriminate.
  - intros a [].
  - cbn. apply W.
  - exists p, (heap s'). split; [|exact A3].
    unfold loads, dumps. rewrite E. cbn [snd].
    pose proof (framed_frames (evs ++ [Write [STOP]]) [[PROTO; 4]] [PROTO; 4] [] None) as F.
    assert (F0 : framed [[PROTO; 4]] [PROTO; 4]).
    { change [PROTO; 4] with ([PROTO; 4] ++ []). repeat constructor. }
    specialize (F F0 eq_refl). rewrite chunks_app in F. cbn [app] in F.
    set (file := frames (evs ++ [Write [STOP]]) [PROTO; 4] None) in *.
    (* the last opcode is STOP *)
    assert (Split : forall cs b, framed cs b -> forall cs', cs = cs' ++ [[STOP]] -> exists b0 tl, b = b0 ++ STOP :: tl /\ framed cs' b0).
    { clear. intros cs b F. induction F as [|c cs b F IH|n cs b F IH]; intros cs' Ec.
      - destruct cs'; discriminate.
      - destruct cs' as [|c' cs']; cbn in Ec; injection Ec as -> Ec.
        + subst cs. exists [], b. split; [reflexivity|constructor].
        + destruct (IH cs' Ec) as [b0 [tl [-> F0]]]. exists (c' ++ b0), tl. split; [rewrite app_assoc; reflexivity|constructor; exact F0].
      - destruct (IH cs' Ec) as [b0 [tl [-> F0]]]. exists ((FRAME :: le 8 n) ++ b0), tl. split; [rewrite <- app_assoc; reflexivity|constructor; exact F0]. }
    change (chunks [Write [STOP]]) with [[STOP]] in F. rewrite app_comm_cons in F.
    destruct (Split _ _ F _ eq_refl) as [b0 [tl [Eb F1]]].
    assert (SM : sems (mkM [] [] []) ([PROTO; 4] :: chunks evs) s').
    { exists (mkM [] [] []). split; [|exact A1]. intros rest. eapply steps_cons with (b1 := rest); [|cbn; lia|apply steps_refl].
      cbn -[take]. change (4 :: rest) with ([4] ++ rest). rewrite take_app by reflexivity. reflexivity. }
    pose proof (framed_sems _ _ F1 _ _ SM (STOP :: tl)) as ST. rewrite <- Eb in ST.
    destruct (run_steps _ _ _ _ ST 1 (p, heap s')) as [f [F2 R]]; [cbn; lia| |].
    + destruct s' as [st u h]. cbn [stack] in A2. subst st. reflexivity.
    + eapply run_more; [exact R|exact F2].
Qed.

(** ** Compressed images *)

(** Identities of the strings: new ones, all different. *)
Definition fresh (latent hyper : list (nat * list Z)) : Prop :=
  NoDup (map fst (latent ++ hyper)) /\ Forall (fun s => (9 <= fst s)%nat) (latent ++ hyper).
Definition fits (latent hyper : list (nat * list Z)) (dims : list Z) : Prop :=
  Forall (fun s => len (snd s) < 2 ^ 64) (latent ++ hyper) /\ Forall (fun n => 0 <= n < 2 ^ 31) dims /\
  Z.of_nat (length (latent ++ hyper)) < 2 ^ 32 - 20.

Lemma sub_inv : forall v x, sub v x -> x = v \/ exists c, In c (children v) /\ sub c x.
Proof. intros v x H; inversion H; subst; [left; reflexivity|right; eauto]. Qed.

Lemma sizes_bytes : forall l : list (nat * list Z), sizes (map (fun s => VBytes (fst s) (snd s)) l) = Z.of_nat (length l).
Proof. induction l as [|s l IH]; [reflexivity|]. cbn [map sizes fold_right size length]. fold (sizes (map (fun s => VBytes (fst s) (snd s)) l)). rewrite IH. lia. Qed.

Lemma compressed_wf : forall latent hyper h w ph pw, fresh latent hyper -> fits latent hyper [h; w; ph; pw] ->
  wf (compressed_output latent hyper h w ph pw).
Proof.
  intros latent hyper h w ph pw [ND FR] [FL [FD FN]].
  set (B := fun s : nat * list Z => VBytes (fst s) (snd s)) in *.
  assert (C : forall x, sub (compressed_output latent hyper h w ph pw) x ->
    In x [compressed_output latent hyper h w ph pw; VClass 1 (VStr 2 module_str) (VStr 3 class_str); VStr 2 module_str; VStr 3 class_str;
          VTuple 4 [VList 5 (map B latent); VList 6 (map B hyper); VTuple 7 [VInt h; VInt w]; VTuple 8 [VInt ph; VInt pw]];
          VList 5 (map B latent); VList 6 (map B hyper); VTuple 7 [VInt h; VInt w]; VTuple 8 [VInt ph; VInt pw];
          VInt h; VInt w; VInt ph; VInt pw] \/ exists s, In s (latent ++ hyper) /\ x = B s).
  { assert (LV : forall i l x, sub (VList i (map B l)) x -> x = VList i (map B l) \/ exists s, In s l /\ x = B s).
    { intros i l x S. apply sub_inv in S. destruct S as [->|[c [I S]]]; [left; reflexivity|right].
      cbn in I. apply in_map_iff in I. destruct I as [s [<- I]]. exists s. split; [exact I|].
      apply sub_inv in S. destruct S as [->|[c [[] _]]]. reflexivity. }
    intros x S. unfold compressed_output in S. fold B in S.
    apply sub_inv in S. destruct S as [->|[c [[<-|[<-|[]]] S]]]; [left; left; reflexivity| |].
    - apply sub_inv in S. destruct S as [->|[c [[<-|[<-|[]]] S]]]; [left; cbn; tauto| |];
        apply sub_inv in S; destruct S as [->|[c [[] _]]]; left; cbn; tauto.
    - apply sub_inv in S. destruct S as [->|[c [[<-|[<-|[<-|[<-|[]]]]] S]]]; [left; cbn; tauto| | | |].
      + apply LV in S. destruct S as [->|[s [I ->]]]; [left; cbn; tauto|right; exists s; split; [apply in_or_app; auto|reflexivity]].
      + apply LV in S. destruct S as [->|[s [I ->]]]; [left; cbn; tauto|right; exists s; split; [apply in_or_app; auto|reflexivity]].
      + apply sub_inv in S. destruct S as [->|[c [[<-|[<-|[]]] S]]]; [left; cbn; tauto| |];
          apply sub_inv in S; destruct S as [->|[c [[] _]]]; left; cbn; tauto.
      + apply sub_inv in S. destruct S as [->|[c [[<-|[<-|[]]] S]]]; [left; cbn; tauto| |];
          apply sub_inv in S; destruct S as [->|[c [[] _]]]; left; cbn; tauto. }
  rewrite Forall_forall in FL, FD, FR. split; [|split].
  - intros x S. destruct (C x S) as [I|[s [I ->]]]; [|cbn; apply FL; exact I].
    cbn [In] in I. repeat (destruct I as [<-|I]); try (cbn; unfold len; cbn; lia); try exact Logic.I; try contradiction;
      try (cbn; apply FD; cbn; tauto).
    + split; [exists 1%nat, (VStr 2 module_str), (VStr 3 class_str); reflexivity|].
      eexists _, _; reflexivity.
    + split; eexists _, _; reflexivity.
  - intros x y i Sx Sy Ix Iy. destruct (C x Sx) as [Cx|[s [Cx ->]]], (C y Sy) as [Cy|[t [Cy ->]]].
    + cbn [In] in Cx, Cy. repeat (destruct Cx as [<-|Cx]); try contradiction; repeat (destruct Cy as [<-|Cy]); try contradiction;
        cbn in Ix, Iy; congruence.
    + exfalso. specialize (FR t Cy). cbn [B ident] in Iy. injection Iy as <-.
      cbn [In] in Cx. repeat (destruct Cx as [<-|Cx]); try contradiction; cbn in Ix; try discriminate; injection Ix as Ix; lia.
    + exfalso. specialize (FR s Cx). cbn [B ident] in Ix. injection Ix as <-.
      cbn [In] in Cy. repeat (destruct Cy as [<-|Cy]); try contradiction; cbn in Iy; try discriminate; injection Iy as Iy; lia.
    + cbn [B ident] in Ix, Iy. injection Ix as <-. injection Iy as E.
      assert (U : forall (l : list (nat * list Z)) s t, NoDup (map fst l) -> In s l -> In t l -> fst t = fst s -> s = t).
      { clear. induction l as [|a l IH]; intros s t N I J E; [contradiction|]. cbn in N; inversion N; subst.
        destruct I as [->|I], J as [->|J]; auto.
        - exfalso; apply H1; rewrite <- E; apply in_map; exact J.
        - exfalso; apply H1; rewrite E; apply in_map; exact I. }
      rewrite (U _ _ _ ND Cx Cy E). reflexivity.
  - unfold compressed_output. cbn [size]. fold B. 
    pose proof (size_list 5 (map B latent)) as Q1. pose proof (size_list 6 (map B hyper)) as Q2. cbn [size] in Q1, Q2.
    rewrite Q1, Q2. unfold B. rewrite !sizes_bytes. rewrite app_length in FN. lia.
Qed.

(** The file of a compressed batch reads back as the named tuple with the same strings and
    the same two sizes. *)
Theorem C90_compressed_readable : forall latent hyper h w ph pw, fresh latent hyper -> fits latent hyper [h; w; ph; pw] ->
  exists a b heap,
    loads (dumps (compressed_output latent hyper h w ph pw)) =
      Ok (PObj (PClass module_str class_str) [PListRef a; PListRef b; PTuple [PInt h; PInt w]; PTuple [PInt ph; PInt pw]], heap) /\
    nth_error heap a = Some (map (fun s => PBytes (snd s)) latent) /\
    nth_error heap b = Some (map (fun s => PBytes (snd s)) hyper).
Proof.
  intros latent hyper h w ph pw F G. destruct (C90_roundtrip _ (compressed_wf latent hyper h w ph pw F G)) as [p [hp [E D]]].
  assert (LV : forall H ps (l : list (nat * list Z)), Forall2 (denotes H) ps (map (fun s => VBytes (fst s) (snd s)) l) -> ps = map (fun s => PBytes (snd s)) l).
  { intros H ps l; revert ps; induction l as [|s l IH]; intros ps FF; inversion FF as [|q v ps' l' Q1 Q2]; subst; [reflexivity|].
    cbn. rewrite <- (IH _ Q2). inversion Q1; reflexivity. }
  unfold compressed_output in D. inversion D as [| | | | | |i q ps c a Dc Da]; subst. inversion Dc; subst. inversion Da as [| | | |qs i l FF| |]; subst.
  inversion FF as [|q1 v1 l1 l1' D1 F1]; subst. inversion F1 as [|q2 v2 l2 l2' D2 F2]; subst.
  inversion F2 as [|q3 v3 l3 l3' D3 F3]; subst. inversion F3 as [|q4 v4 l4 l4' D4 F4]; subst. inversion F4; subst.
  inversion D1 as [| | |a1 ps1 i1 w1 H1 G1| | |]; subst. inversion D2 as [| | |a2 ps2 i2 w2 H2 G2| | |]; subst.
  exists a1, a2, hp. rewrite (LV _ _ _ G1) in H1. rewrite (LV _ _ _ G2) in H2. split; [|auto].
  rewrite E. inversion D3 as [| | | |qs3 i3 w3 FF3| |]; subst. inversion D4 as [| | | |qs4 i4 w4 FF4| |]; subst.
  inversion FF3 as [|? ? ? ? X1 X2]; subst. inversion X2 as [|? ? ? ? X3 X4]; subst. inversion X4; subst.
  inversion FF4 as [|? ? ? ? Y1 Y2]; subst. inversion Y2 as [|? ? ? ? Y3 Y4]; subst. inversion Y4; subst.
  inversion X1; inversion X3; inversion Y1; inversion Y3; subst. reflexivity.
Qed.

(** * Sizes *)

Definition total (evs : list ev) : Z := fold_right (fun c n => len c + n) 0 (chunks evs).
Definition larges (evs : list ev) : Z := fold_right (fun e n => (match e with Large _ => 1 | _ => 0 end) + n) 0 evs.
Definition curlen (cur : option (list Z)) : Z := match cur with None => 0 | Some c => len c end.

Lemma close_len : forall out cur, len out + curlen cur <= len (close_frame out cur) <= len out + curlen cur + 9.
Proof.
  intros out [c|]; cbn [close_frame curlen]; [|lia]. rewrite !len_app. destruct (FRAME_SIZE_MIN <=? len c);
    [change (len (FRAME :: le 8 (len c))) with 9|change (len []) with 0]; lia.
Qed.
Lemma total_nonneg : forall evs, 0 <= total evs.
Proof. intros evs; unfold total; induction (chunks evs) as [|c cs IH]; cbn; [lia|]. pose proof (len_nonneg c). lia. Qed.
Lemma total_cons : forall e evs, total (e :: evs) = (match e with Boundary => 0 | Write b | Large b => len b end) + total evs.
Proof. intros [|b|b] evs; reflexivity. Qed.
Lemma larges_nonneg : forall evs, 0 <= larges evs.
Proof. induction evs as [|[|b|b] evs IH]; [cbn; lia| | |]; cbn [larges fold_right]; fold (larges evs); lia. Qed.

Lemma frames_len : forall evs out cur,
  len out + curlen cur + total evs <= len (frames evs out cur) /\
  65536 * (len (frames evs out cur) - len out - curlen cur - total evs - 9 - 9 * larges evs) <= 9 * (curlen cur + total evs).
Proof.
  induction evs as [|e evs IH]; intros out cur.
  - cbn [frames]. pose proof (close_len out cur). change (total []) with 0. change (larges []) with 0.
    assert (0 <= curlen cur) by (destruct cur; cbn; [apply len_nonneg|lia]). lia.
  - rewrite total_cons. destruct e as [|b|b]; cbn [frames].
    + change (larges (Boundary :: evs)) with (0 + larges evs). destruct cur as [c|]; [|specialize (IH out None); lia].
      destruct (Z.leb_spec FRAME_SIZE_TARGET (len c)) as [L|L]; [|specialize (IH out (Some c)); lia].
      specialize (IH (close_frame out (Some c)) None). pose proof (close_len out (Some c)). cbn [curlen] in *. unfold FRAME_SIZE_TARGET in L. lia.
    + change (larges (Write b :: evs)) with (0 + larges evs).
      specialize (IH out (Some (match cur with None => b | Some c => c ++ b end))). cbn [curlen] in IH.
      destruct cur as [c|]; cbn [curlen]; rewrite ?len_app in IH; lia.
    + change (larges (Large b :: evs)) with (1 + larges evs).
      specialize (IH (close_frame out cur ++ b) None). rewrite len_app in IH. pose proof (close_len out cur). cbn [curlen] in IH.
      assert (0 <= curlen cur) by (destruct cur; cbn; [apply len_nonneg|lia]). pose proof (len_nonneg b). lia.
Qed.

Lemma frames_small : forall evs out cur, larges evs = 0 -> curlen cur + total evs < 65536 -> 4 <= curlen cur + total evs ->
  len (frames evs out cur) = len out + 9 + curlen cur + total evs.
Proof.
  induction evs as [|e evs IH]; intros out cur NL S M.
  - change (total []) with 0 in *. cbn [frames]. destruct cur as [c|]; cbn [curlen close_frame] in *; [|lia].
    rewrite !len_app. destruct (Z.leb_spec FRAME_SIZE_MIN (len c)) as [L|L]; [|unfold FRAME_SIZE_MIN in L; lia].
    change (len (FRAME :: le 8 (len c))) with 9. lia.
  - rewrite total_cons in *. pose proof (total_nonneg evs). pose proof (larges_nonneg evs). destruct e as [|b|b]; cbn [frames].
    + change (larges (Boundary :: evs)) with (0 + larges evs) in NL. destruct cur as [c|]; cbn [curlen] in *; [|rewrite IH; cbn [curlen]; lia].
      destruct (Z.leb_spec FRAME_SIZE_TARGET (len c)) as [L|L]; [unfold FRAME_SIZE_TARGET in L; lia|]. rewrite IH; cbn [curlen]; lia.
    + change (larges (Write b :: evs)) with (0 + larges evs) in NL.
      destruct cur as [c|]; cbn [curlen] in *; rewrite IH; cbn [curlen]; rewrite ?len_app; lia.
    + change (larges (Large b :: evs)) with (1 + larges evs) in NL. lia.
Qed.

(** Bytes for the length of a string and for an integer. *)
Definition string_header (s : list Z) : Z := if len s <=? 255 then 2 else if len s <=? 4294967295 then 5 else 9.
Definition int_size (n : Z) : Z := if n <? 256 then 2 else if n <? 65536 then 3 else 5.

Lemma data_len : forall a b c d rest, total (save_data a b c d :: rest) = string_header d + len d + total rest.
Proof.
  intros a b c d rest. unfold total, chunks. cbn [flat_map]. rewrite save_data_chunk. cbn [app fold_right]. rewrite len_app.
  unfold string_header. destruct (len d <=? 255); [|destruct (len d <=? 4294967295)];
    (match goal with |- len (?x :: le ?k ?n) + _ + _ = _ => change (len (x :: le k n)) with (1 + len (le k n)); rewrite (len_le k n) end); lia.
Qed.
Lemma int_len : forall n rest, total (save_int n :: rest) = int_size n + total rest.
Proof.
  intros n rest. unfold save_int. rewrite total_cons. unfold int_size.
  destruct (n <? 256); [reflexivity|]. destruct (n <? 65536); reflexivity.
Qed.
Lemma data_large : forall a b c d rest, larges (save_data a b c d :: rest) = (if 65536 <=? len d then 1 else 0) + larges rest.
Proof. intros. unfold save_data, write_bytes, FRAME_SIZE_TARGET. destruct (65536 <=? len d); reflexivity. Qed.
Lemma int_large : forall n rest, larges (save_int n :: rest) = larges rest.
Proof. reflexivity. Qed.

(** One image, as the evaluation scripts measure it. *)
Definition one_image (y z : list Z) (h w ph pw : Z) : val := compressed_output [(9%nat, y)] [(10%nat, z)] h w ph pw.

Lemma one_image_events : forall y z h w ph pw, snd (save (one_image y z h w ph pw) []) =
  [Boundary; Boundary; Boundary; save_data SHORT_BINUNICODE BINUNICODE BINUNICODE8 module_str; Write [MEMOIZE];
   Boundary; save_data SHORT_BINUNICODE BINUNICODE BINUNICODE8 class_str; Write [MEMOIZE]; Write [STACK_GLOBAL]; Write [MEMOIZE];
   Boundary; Write [MARK];
   Boundary; Write [EMPTY_LIST]; Write [MEMOIZE]; Boundary; save_data SHORT_BINBYTES BINBYTES BINBYTES8 y; Write [MEMOIZE]; Write [APPEND];
   Boundary; Write [EMPTY_LIST]; Write [MEMOIZE]; Boundary; save_data SHORT_BINBYTES BINBYTES BINBYTES8 z; Write [MEMOIZE]; Write [APPEND];
   Boundary; Boundary; save_int h; Boundary; save_int w; Write [TUPLE2]; Write [MEMOIZE];
   Boundary; Boundary; save_int ph; Boundary; save_int pw; Write [TUPLE2]; Write [MEMOIZE];
   Write [TUPLE]; Write [MEMOIZE]; Write [NEWOBJ]; Write [MEMOIZE]].
Proof. intros. reflexivity. Qed.

Definition one_image_content (y z : list Z) (h w ph pw : Z) : Z :=
  len y + len z + string_header y + string_header z + int_size h + int_size w + int_size ph + int_size pw + 96.
Lemma one_image_total : forall y z h w ph pw,
  total (snd (save (one_image y z h w ph pw) []) ++ [Write [STOP]]) = one_image_content y z h w ph pw + 1 /\
  larges (snd (save (one_image y z h w ph pw) []) ++ [Write [STOP]]) = (if 65536 <=? len y then 1 else 0) + (if 65536 <=? len z then 1 else 0).
Proof.
  intros. rewrite one_image_events. cbn [app]. split.
  - repeat first [rewrite data_len | rewrite int_len | rewrite total_cons].
    change (total []) with 0. change (string_header module_str) with 2. change (string_header class_str) with 2.
    change (len module_str) with 45. change (len class_str) with 26. unfold one_image_content.
    repeat match goal with |- context [len [?x]] => change (len [x]) with 1 end. lia.
  - repeat first [rewrite data_large | rewrite int_large | match goal with |- context [larges (Boundary :: ?e)] => change (larges (Boundary :: e)) with (larges e) end
      | match goal with |- context [larges (Write ?b :: ?e)] => change (larges (Write b :: e)) with (larges e) end].
    change (larges []) with 0. change (len module_str) with 45. change (len class_str) with 26. cbn [Z.leb Z.compare Pos.compare Pos.compare_cont].
    destruct (65536 <=? len y), (65536 <=? len z); reflexivity.
Qed.

(** The exact size of the file of one image with up to 64 kB of data. *)
Theorem C90_one_image_size : forall y z h w ph pw, len y + len z < 65000 ->
  pickle_size_of (one_image y z h w ph pw) =
    len y + len z + string_header y + string_header z + int_size h + int_size w + int_size ph + int_size pw + 108.
Proof.
  intros y z h w ph pw L. unfold pickle_size_of, dumps.
  destruct (one_image_total y z h w ph pw) as [T N]. pose proof (len_nonneg y). pose proof (len_nonneg z).
  rewrite frames_small.
  - rewrite T. cbn [curlen]. change (len [PROTO; 4]) with 2. unfold one_image_content. lia.
  - rewrite N. destruct (Z.leb_spec 65536 (len y)); [lia|]. destruct (Z.leb_spec 65536 (len z)); [lia|]. reflexivity.
  - rewrite T. cbn [curlen]. unfold one_image_content, string_header, int_size.
    repeat match goal with |- context [if ?c then _ else _] => destruct c end; lia.
  - rewrite T. cbn [curlen]. unfold one_image_content, string_header, int_size.
    repeat match goal with |- context [if ?c then _ else _] => destruct c end; lia.
Qed.

(** In general the file is 111 to 164 bytes longer than the coded strings, plus at most one
    byte in seven thousand: the measured rate is never below what the entropy coder wrote. *)
Theorem C90_overhead : forall y z h w ph pw,
  let payload := len y + len z in
  payload + 111 <= pickle_size_of (one_image y z h w ph pw) <= payload + 164 + payload / 7000.
Proof.
  intros y z h w ph pw payload. unfold pickle_size_of, dumps.
  destruct (one_image_total y z h w ph pw) as [T N].
  destruct (frames_len (snd (save (one_image y z h w ph pw) []) ++ [Write [STOP]]) [PROTO; 4] None) as [F1 F2].
  set (size := len (frames (snd (save (one_image y z h w ph pw) []) ++ [Write [STOP]]) [PROTO; 4] None)) in *.
  assert (B : payload + 108 <= one_image_content y z h w ph pw <= payload + 134).
  { unfold one_image_content, string_header, int_size, payload. repeat match goal with |- context [if ?c then _ else _] => destruct c end; lia. }
  assert (P : 0 <= payload) by (unfold payload; pose proof (len_nonneg y); pose proof (len_nonneg z); lia).
  assert (L : larges (snd (save (one_image y z h w ph pw) []) ++ [Write [STOP]]) <= 2).
  { rewrite N. destruct (65536 <=? len y), (65536 <=? len z); lia. }
  rewrite T in F1, F2. cbn [curlen] in F1, F2. change (len [PROTO; 4]) with 2 in F1, F2.
  pose proof (Z.div_mod payload 7000 ltac:(lia)). pose proof (Z.mod_pos_bound payload 7000 ltac:(lia)).
  set (q := payload / 7000) in *. assert (0 <= q) by (apply Z.div_pos; lia). lia.
Qed.

(** ** Batches *)

Definition payload (l : list (nat * list Z)) : Z := fold_right (fun s n => len (snd s) + n) 0 l.
Notation B := (fun s : nat * list Z => VBytes (fst s) (snd s)).

Lemma find_none : forall i m, ~ In i m -> find i m = None.
Proof.
  intros i m; induction m as [|j m IH]; intros N; [reflexivity|]. cbn. destruct (Nat.eqb_spec i j) as [->|]; [exfalso; apply N; left; reflexivity|].
  rewrite IH; [reflexivity|]. intro I; apply N; right; exact I.
Qed.
Lemma save_fresh_bytes : forall s memo, ~ In (fst s) memo ->
  save (B s) memo = (memo ++ [fst s], [Boundary; save_data SHORT_BINBYTES BINBYTES BINBYTES8 (snd s); Write [MEMOIZE]]).
Proof. intros [i b] memo N. cbn [fst snd save]. rewrite find_none by exact N. reflexivity. Qed.
Lemma total_app : forall a b, total (a ++ b) = total a + total b.
Proof. induction a as [|e a IH]; intros b; [reflexivity|]. cbn [app]. rewrite !total_cons, IH. lia. Qed.
Lemma header_pos : forall s, 2 <= string_header s.
Proof. intros; unfold string_header; destruct (len s <=? 255); [lia|]. destruct (len s <=? 4294967295); lia. Qed.

Lemma batches_payload : forall l n memo, NoDup (map fst l) -> (forall s, In s l -> ~ In (fst s) memo) ->
  fst (save_batches n (map B l) memo) = memo ++ map fst l /\ payload l <= total (snd (save_batches n (map B l) memo)).
Proof.
  induction l as [|s l IH]; intros n memo ND D; cbn [map save_batches].
  - cbn. rewrite app_nil_r. split; [reflexivity|lia].
  - cbn [map] in ND. inversion ND as [|? ? N1 N2]; subst. rewrite save_fresh_bytes by (apply D; left; reflexivity).
    specialize (IH (if Nat.eqb n BATCHSIZE then 1%nat else S n) (memo ++ [fst s]) N2).
    destruct (save_batches (if Nat.eqb n BATCHSIZE then 1%nat else S n) (map B l) (memo ++ [fst s])) as [m2 e2]. cbn [fst snd] in *.
    destruct IH as [-> IH].
    { intros t T Q. apply in_app_or in Q. destruct Q as [Q|[Q|[]]]; [apply (D t (or_intror T) Q)|]. apply N1. rewrite Q. apply in_map; exact T. }
    split; [rewrite <- app_assoc; reflexivity|]. rewrite total_app. pose proof (total_nonneg (if Nat.eqb n BATCHSIZE then [Write [APPENDS]; Write [MARK]] else [])).
    cbn [app]. rewrite total_cons, data_len, total_cons. cbn [payload fold_right]. fold (payload l).
    pose proof (header_pos (snd s)). pose proof (len_nonneg [MEMOIZE]). lia.
Qed.

Lemma list_payload : forall i l memo, NoDup (i :: map fst l) -> (forall j, In j (i :: map fst l) -> ~ In j memo) ->
  fst (save (VList i (map B l)) memo) = memo ++ i :: map fst l /\ payload l <= total (snd (save (VList i (map B l)) memo)).
Proof.
  intros i l memo ND D. inversion ND as [|? ? N1 N2]; subst.
  assert (D' : forall s, In s l -> ~ In (fst s) (memo ++ [i])).
  { intros s S Q. apply in_app_or in Q. destruct Q as [Q|[Q|[]]].
    - apply (D (fst s)); [right; apply in_map; exact S|exact Q].
    - apply N1. rewrite Q. apply in_map; exact S. }
  rewrite save_list_eq, find_none by (apply D; left; reflexivity). destruct l as [|s [|t l]]; cbn [map].
  - cbn. split; [reflexivity|lia].
  - rewrite save_fresh_bytes by (apply D'; left; reflexivity). cbn [fst snd]. split; [rewrite <- app_assoc; reflexivity|].
    rewrite !total_cons. cbn [app]. rewrite total_cons, data_len, !total_cons. pose proof (header_pos (snd s)).
    cbn [payload fold_right]. change (total []) with 0. unfold len; cbn [length]; lia.
  - pose proof (batches_payload (s :: t :: l) 0 (memo ++ [i]) N2 D') as [E1 E2]. cbn [map] in E1, E2.
    destruct (save_batches 0 (B s :: B t :: map B l) (memo ++ [i])) as [m1 e1]. cbn [fst snd] in *. subst m1.
    split; [rewrite <- app_assoc; reflexivity|]. rewrite !total_cons.
    pose proof (len_nonneg [EMPTY_LIST]). pose proof (len_nonneg [MEMOIZE]). pose proof (len_nonneg [MARK]). lia.
Qed.

(** The measured size of a batch is never below that of its strings. *)
Theorem C90_batch_size : forall latent hyper h w ph pw, fresh latent hyper ->
  payload latent + payload hyper + 87 <= pickle_size_of (compressed_output latent hyper h w ph pw).
Proof.
  intros latent hyper h w ph pw [ND FR]. unfold pickle_size_of, dumps.
  destruct (frames_len (snd (save (compressed_output latent hyper h w ph pw) []) ++ [Write [STOP]]) [PROTO; 4] None) as [F _].
  cbn [curlen] in F. change (len [PROTO; 4]) with 2 in F. rewrite total_app in F.
  enough (T : payload latent + payload hyper + 84 <= total (snd (save (compressed_output latent hyper h w ph pw) []))).
  { change (total [Write [STOP]]) with 1 in F. lia. }
  clear F. rewrite Forall_forall in FR. rewrite map_app in ND.
  assert (NDl : NoDup (map fst latent) /\ NoDup (map fst hyper) /\ forall j, In j (map fst latent) -> ~ In j (map fst hyper)).
  { clear - ND. induction (map fst latent) as [|a l IH]; cbn in *; [split; [constructor|split; [exact ND|intros j []]]|].
    inversion ND; subst. destruct (IH H2) as [A [C D]]. split; [constructor; [intro Q; apply H1; apply in_or_app; auto|exact A]|].
    split; [exact C|]. intros j [<-|J]; [intro Q; apply H1; apply in_or_app; auto|apply D; exact J]. }
  destruct NDl as [ND1 [ND2 DJ]].
  assert (G1 : forall j, In j (map fst latent) -> (9 <= j)%nat).
  { intros j J. apply in_map_iff in J. destruct J as [s [<- J]]. apply FR. apply in_or_app; auto. }
  assert (G2 : forall j, In j (map fst hyper) -> (9 <= j)%nat).
  { intros j J. apply in_map_iff in J. destruct J as [s [<- J]]. apply FR. apply in_or_app; auto. }
  unfold compressed_output. rewrite save_obj_eq. unfold memoised. cbn [find].
  change (save (VClass 1 (VStr 2 module_str) (VStr 3 class_str)) []) with
    ([2%nat; 3%nat; 1%nat],
     [Boundary; Boundary; save_data SHORT_BINUNICODE BINUNICODE BINUNICODE8 module_str; Write [MEMOIZE];
      Boundary; save_data SHORT_BINUNICODE BINUNICODE BINUNICODE8 class_str; Write [MEMOIZE]; Write [STACK_GLOBAL]; Write [MEMOIZE]]).
  cbv beta iota. rewrite save_tuple_eq. cbn [find Nat.eqb option_map]. cbn [save_items].
  destruct (list_payload 5 latent [2%nat; 3%nat; 1%nat]) as [A1 A2].
  { constructor; [|exact ND1]. intro Q; specialize (G1 _ Q); lia. }
  { intros j [<-|J] Q; [cbn in Q; lia|]. specialize (G1 j J). cbn in Q. lia. }
  destruct (save (VList 5 (map B latent)) [2%nat; 3%nat; 1%nat]) as [m1 e1]. cbn [fst snd] in A1, A2. subst m1.
  destruct (list_payload 6 hyper ([2%nat; 3%nat; 1%nat] ++ 5%nat :: map fst latent)) as [C1 C2].
  { constructor; [|exact ND2]. intro Q; specialize (G2 _ Q); lia. }
  { intros j J Q. apply in_app_or in Q. destruct J as [<-|J].
    - destruct Q as [Q|[Q|Q]]; [cbn in Q; lia|discriminate|]. specialize (G1 _ Q). lia.
    - pose proof (G2 j J). destruct Q as [Q|[Q|Q]]; [cbn in Q; lia|lia|]. apply (DJ j Q J). }
  destruct (save (VList 6 (map B hyper)) ([2%nat; 3%nat; 1%nat] ++ 5%nat :: map fst latent)) as [m2 e2]. cbn [fst snd] in C1, C2.
  destruct (save (VTuple 7 [VInt h; VInt w]) m2) as [m3 e3]. destruct (save (VTuple 8 [VInt ph; VInt pw]) m3) as [m4 e4].
  cbn [snd app length Nat.leb]. cbn [app]. repeat first [rewrite data_len | rewrite total_app | rewrite total_cons].
  pose proof (total_nonneg e3). pose proof (total_nonneg e4).
  change (len module_str) with 45. change (len class_str) with 26. change (string_header module_str) with 2. change (string_header class_str) with 2.
  change (total []) with 0. unfold len; cbn [length]. lia.
Qed.

(** * Non-vacuity and deviations *)

Example C90_ex : loads (dumps (one_image [1; 2; 3] [255] 300 200 320 256)) =
    Ok (PObj (PClass module_str class_str) [PListRef 0; PListRef 1; PTuple [PInt 300; PInt 200]; PTuple [PInt 320; PInt 256]], [[PBytes [1; 2; 3]]; [PBytes [255]]]) /\
  pickle_size_of (one_image [1; 2; 3] [255] 300 200 320 256) = 127.
Proof. vm_compute. auto. Qed.
Example C90_ex_fresh : fresh [(9%nat, [1; 2; 3])] [(10%nat, [255])] /\ fits [(9%nat, [1; 2; 3])] [(10%nat, [255])] [300; 200; 320; 256].
Proof.
  split; [split|split; [|split]].
  - cbn. repeat constructor; cbn; intuition discriminate.
  - repeat constructor; cbn; lia.
  - repeat constructor.
  - repeat constructor; lia.
  - reflexivity.
Qed.
(** A list of more than a thousand strings, in two batches, one of them an object seen before. *)
Example C90_ex_long :
  let v := VList 0 (map (fun k => VBytes (1 + k) [Z.of_nat (k mod 256)]) (seq 0 1001) ++ [VBytes 7 [6]]) in
  loads (dumps v) = Ok (PListRef 0, [map (fun k => PBytes [Z.of_nat (k mod 256)]) (seq 0 1001) ++ [PBytes [6]]]).
Proof. vm_compute. reflexivity. Qed.

(** Known deviation: if two images of a batch have one string object, it is counted once. *)
Theorem C90_shared_strings_refuted :
  let y := repeat 0 1000 in
  pickle_size_of (compressed_output [(9%nat, y); (9%nat, y)] [(10%nat, [1]); (11%nat, [2])] 1 1 64 64) < 2 * len y.
Proof. vm_compute. reflexivity. Qed.

Print Assumptions C90_roundtrip.
Print Assumptions C90_compressed_readable.
Print Assumptions C90_one_image_size.
Print Assumptions C90_overhead.
Print Assumptions C90_batch_size.
Print Assumptions C90_shared_strings_refuted.

(** * The bytes of the file, by the numbers of pickle's protocol 4 *)
(** A string of bytes and a number as they stand in the file. *)
Definition bytes_in_file (d : list Z) : list Z :=
  if len d <=? 255 then [67; len d] ++ d else if len d <=? 4294967295 then [66] ++ le 4 (len d) ++ d else [142] ++ le 8 (len d) ++ d.
Definition number_in_file (n : Z) : list Z :=
  if n <? 256 then [75; n] else if n <? 65536 then [77; n mod 256; n / 256] else [74] ++ le 4 n.
Lemma le1 n : 0 <= n < 256 -> le 1 n = [n].
Proof. intro H. cbn [le]. now rewrite Z.mod_small by lia. Qed.
Lemma le2 n : 0 <= n < 65536 -> le 2 n = [n mod 256; n / 256].
Proof. intro H. cbn [le]. do 2 f_equal. apply Z.mod_small. split; [apply Z.div_pos; lia|apply Z.div_lt_upper_bound; lia]. Qed.
Lemma number_chunk n : 0 <= n -> chunk (save_int n) = [number_in_file n].
Proof.
  intro H. unfold save_int, number_in_file. cbn [chunk]. destruct (Z.ltb_spec n 256); [now rewrite le1 by lia|].
  destruct (Z.ltb_spec n 65536); [now rewrite le2 by lia|reflexivity].
Qed.
Lemma data_chunk a b c d : chunk (save_data a b c d) =
  [if len d <=? 255 then [a; len d] ++ d else if len d <=? 4294967295 then [b] ++ le 4 (len d) ++ d else [c] ++ le 8 (len d) ++ d].
Proof.
  rewrite save_data_chunk. f_equal. pose proof (len_nonneg d). destruct (Z.leb_spec (len d) 255); [now rewrite le1 by lia|].
  destruct (Z.leb_spec (len d) 4294967295); reflexivity.
Qed.
Lemma frames_one : forall evs out cur, larges evs = 0 -> curlen cur + total evs < 65536 -> 4 <= curlen cur + total evs ->
  let body := (match cur with None => [] | Some c => c end) ++ concat (chunks evs) in
  frames evs out cur = out ++ [149] ++ le 8 (len body) ++ body.
Proof.
  induction evs as [|e evs IH]; intros out cur NL S M body.
  - change (total []) with 0 in *. cbn [frames]. unfold body. cbn [chunks flat_map concat]. rewrite app_nil_r. destruct cur as [c|]; cbn [curlen close_frame] in *; [|lia].
    destruct (Z.leb_spec FRAME_SIZE_MIN (len c)) as [L|L]; [|unfold FRAME_SIZE_MIN in L; lia]. reflexivity.
  - rewrite total_cons in *. pose proof (total_nonneg evs). pose proof (larges_nonneg evs). destruct e as [|b|b]; cbn [frames].
    + change (larges (Boundary :: evs)) with (0 + larges evs) in NL. destruct cur as [c|]; cbn [curlen] in *.
      * destruct (Z.leb_spec FRAME_SIZE_TARGET (len c)) as [L|L]; [unfold FRAME_SIZE_TARGET in L; lia|]. rewrite IH; cbn [curlen]; try lia. reflexivity.
      * rewrite IH; cbn [curlen]; try lia. reflexivity.
    + change (larges (Write b :: evs)) with (0 + larges evs) in NL.
      destruct cur as [c|]; cbn [curlen] in *; (rewrite IH; [|lia|cbn [curlen]; rewrite ?len_app; lia|cbn [curlen]; rewrite ?len_app; lia]); unfold body;
        change (chunks (Write b :: evs)) with (b :: chunks evs); cbn [concat]; rewrite ?app_nil_l, ?app_assoc; reflexivity.
    + change (larges (Large b :: evs)) with (1 + larges evs) in NL. lia.
Qed.
(** The file of one image with up to 64 kB of data, byte by byte, so that any reader of the format can read it. *)
Theorem C90_file_bytes : forall y z h w ph pw, len y + len z < 65000 -> 0 <= h -> 0 <= w -> 0 <= ph -> 0 <= pw ->
  let body := [140; 45] ++ module_str ++ [148] ++ [140; 26] ++ class_str ++ [148; 147; 148; 40; 93; 148] ++
              bytes_in_file y ++ [148; 97; 93; 148] ++ bytes_in_file z ++ [148; 97] ++
              number_in_file h ++ number_in_file w ++ [134; 148] ++ number_in_file ph ++ number_in_file pw ++ [134; 148] ++ [116; 148; 129; 148; 46] in
  dumps (one_image y z h w ph pw) = [128; 4; 149] ++ le 8 (len body) ++ body.
Proof.
  intros y z h w ph pw L Hh Hw Hp Hq body. unfold dumps.
  destruct (one_image_total y z h w ph pw) as [T N]. pose proof (len_nonneg y). pose proof (len_nonneg z).
  rewrite frames_one.
  - assert (E : concat (chunks (snd (save (one_image y z h w ph pw) []) ++ [Write [STOP]])) = body).
    { rewrite one_image_events. cbn [app].
      assert (CC : forall e evs, chunks (e :: evs) = chunk e ++ chunks evs) by reflexivity.
      rewrite !CC. rewrite !number_chunk, !data_chunk by assumption.
      change (len module_str) with 45. change (len class_str) with 26. cbn [chunk chunks flat_map app concat Z.leb Z.compare Pos.compare Pos.compare_cont].
      unfold body, bytes_in_file. rewrite ?app_nil_r. cbn [app]. rewrite <- ?app_assoc. cbn [app]. reflexivity. }
    rewrite E. cbn [app]. reflexivity.
  - rewrite N. destruct (Z.leb_spec 65536 (len y)); [lia|]. destruct (Z.leb_spec 65536 (len z)); [lia|]. reflexivity.
  - rewrite T. cbn [curlen]. unfold one_image_content, string_header, int_size.
    repeat match goal with |- context [if ?c then _ else _] => destruct c end; lia.
  - rewrite T. cbn [curlen]. unfold one_image_content, string_header, int_size.
    repeat match goal with |- context [if ?c then _ else _] => destruct c end; lia.
Qed.
Print Assumptions C90_file_bytes.

(** The names in the file. *)
Fixpoint codes (s : String.string) : list Z :=
  match s with String.EmptyString => [] | String.String c r => Z.of_nat (Ascii.nat_of_ascii c) :: codes r end.
Theorem C90_names : module_str = codes "neuralcompression._outputs._hyperprior_output"%string /\
  class_str = codes "HyperpriorCompressedOutput"%string.
Proof. split; reflexivity. Qed.

(** The bytes of a list of at least two different strings: they follow each other, in batches of a thousand. *)
Fixpoint strings_in_file (k : Z) (l : list (nat * list Z)) : list Z :=
  match l with
  | [] => []
  | s :: l' => (if (0 <? k) && (k mod 1000 =? 0) then [101; 40] else []) ++ bytes_in_file (snd s) ++ [148] ++ strings_in_file (k + 1) l'
  end.
Lemma total_concat evs : total evs = len (concat (chunks evs)).
Proof. induction evs as [|e evs IH]; [reflexivity|]. rewrite total_cons, IH. destruct e as [|b|b]; cbn [chunks flat_map chunk app concat]; rewrite ?len_app; fold (chunks evs); lia. Qed.
Lemma concat_chunks_cons e evs : concat (chunks (e :: evs)) = concat (chunk e) ++ concat (chunks evs).
Proof. change (chunks (e :: evs)) with (chunk e ++ chunks evs). apply concat_app. Qed.
Lemma concat_chunks_app a b : concat (chunks (a ++ b)) = concat (chunks a) ++ concat (chunks b).
Proof. rewrite chunks_app. apply concat_app. Qed.
Lemma batches_bytes : forall l n k memo, NoDup (map fst l) -> (forall s, In s l -> ~ In (fst s) memo) ->
  n = 0%nat /\ k = 0 \/ (1 <= n <= 1000)%nat /\ 0 < k /\ (k - Z.of_nat n) mod 1000 = 0 ->
  let evs := snd (save_batches n (map B l) memo) in
  concat (chunks evs) = strings_in_file k l ++ [101] /\ (Forall (fun s => len (snd s) < 65536) l -> larges evs = 0).
Proof.
  induction l as [|s l IH]; intros n k memo ND D NK; cbn [map save_batches]; [split; reflexivity|].
  cbn [map] in ND. inversion ND as [|? ? N1 N2]; subst. rewrite save_fresh_bytes by (apply D; left; reflexivity).
  assert (BS : Nat.eqb n BATCHSIZE = (0 <? k) && (k mod 1000 =? 0)).
  { unfold BATCHSIZE. destruct NK as [[-> ->]|(A & K & M)]; [reflexivity|]. rewrite (proj2 (Z.ltb_lt _ _) K). cbn [andb].
    apply Z.mod_divide in M; [|lia]. destruct M as [q M]. assert (k = q * 1000 + Z.of_nat n) by lia. subst k.
    rewrite Z.add_comm, Z_mod_plus_full.
    destruct (Nat.eqb_spec n 1000) as [->|NE]; [reflexivity|]. symmetry. rewrite Z.mod_small by lia. apply Z.eqb_neq. lia. }
  assert (NK' : let n' := if Nat.eqb n BATCHSIZE then 1%nat else S n in
     n' = 0%nat /\ k + 1 = 0 \/ (1 <= n' <= 1000)%nat /\ 0 < k + 1 /\ (k + 1 - Z.of_nat n') mod 1000 = 0).
  { cbn zeta. right. unfold BATCHSIZE in *. destruct (Nat.eqb_spec n 1000) as [->|NE].
    - destruct NK as [[Q _]|(A & K & M)]; [discriminate|]. repeat split; try lia. apply Z.mod_divide in M; [|lia]. destruct M as [q M].
      replace (k + 1 - Z.of_nat 1) with ((q + 1) * 1000) by lia. apply Z_mod_mult.
    - destruct NK as [[-> ->]|(A & K & M)]; [repeat split; lia|]. repeat split; try lia. rewrite <- M. f_equal. lia. }
  specialize (IH (if Nat.eqb n BATCHSIZE then 1%nat else S n) (k + 1) (memo ++ [fst s]) N2).
  destruct (save_batches (if Nat.eqb n BATCHSIZE then 1%nat else S n) (map B l) (memo ++ [fst s])) as [m2 e2]. cbn [fst snd] in *.
  destruct IH as [IH1 IH2]; [|exact NK'|].
  { intros t T Q. apply in_app_or in Q. destruct Q as [Q|[Q|[]]]; [apply (D t (or_intror T) Q)|]. apply N1. rewrite Q. apply in_map; exact T. }
  split.
  - rewrite concat_chunks_app. cbn [app]. rewrite !concat_chunks_cons, data_chunk, IH1. cbn [chunk concat strings_in_file]. rewrite !app_nil_r, app_nil_l.
    rewrite <- BS. unfold bytes_in_file. destruct (Nat.eqb n BATCHSIZE); rewrite <- ?app_assoc; reflexivity.
  - intro F. inversion F as [|? ? F1 F2]; subst. specialize (IH2 F2).
    assert (LA : forall a b, larges (a ++ b) = larges a + larges b).
    { induction a as [|e a IHa]; intro b; [reflexivity|]. cbn [app larges fold_right]. fold (larges (a ++ b)). fold (larges a). rewrite IHa. lia. }
    rewrite LA. cbn [app].
    change (larges (Boundary :: save_data SHORT_BINBYTES BINBYTES BINBYTES8 (snd s) :: Write [MEMOIZE] :: e2)) with (larges (save_data SHORT_BINBYTES BINBYTES BINBYTES8 (snd s) :: Write [MEMOIZE] :: e2)).
    rewrite data_large. change (larges (Write [MEMOIZE] :: e2)) with (larges e2). rewrite IH2.
    destruct (Z.leb_spec 65536 (len (snd s))); [lia|]. destruct (Nat.eqb n BATCHSIZE); reflexivity.
Qed.
Lemma bytes_longer d : len d <= len (bytes_in_file d).
Proof.
  unfold bytes_in_file. destruct (len d <=? 255); [|destruct (len d <=? 4294967295)]; rewrite !len_app, ?len_le;
    repeat match goal with |- context [len [?x]] => change (len [x]) with 1 end; try lia.
  unfold len at 2. cbn [length]. lia.
Qed.
Lemma strings_longer : forall l k, Forall (fun s => len (snd s) <= len (strings_in_file k l)) l.
Proof.
  induction l as [|s l IH]; intro k; [constructor|]. cbn [strings_in_file]. rewrite !len_app. pose proof (bytes_longer (snd s)).
  pose proof (len_nonneg (if (0 <? k) && (k mod 1000 =? 0) then [101; 40] else [])). pose proof (len_nonneg [148]). pose proof (len_nonneg (bytes_in_file (snd s))).
  pose proof (len_nonneg (strings_in_file (k + 1) l)).
  constructor; [lia|]. eapply Forall_impl; [|apply (IH (k + 1))]. cbn beta. intros t T. lia.
Qed.
Theorem C90_list_bytes : forall i l, (2 <= length l)%nat -> NoDup (i :: map fst l) ->
  let body := [93; 148; 40] ++ strings_in_file 0 l ++ [101; 46] in
  len body < 65536 -> dumps (VList i (map B l)) = [128; 4; 149] ++ le 8 (len body) ++ body.
Proof.
  intros i l L ND body S. unfold dumps. inversion ND as [|? ? N1 N2]; subst.
  assert (D : forall s, In s l -> ~ In (fst s) [i]) by (intros s I [Q|[]]; apply N1; rewrite Q; apply in_map; exact I).
  destruct (batches_bytes l 0 0 [i] N2 D (or_introl (conj eq_refl eq_refl))) as [C LG].
  assert (E : snd (save (VList i (map B l)) []) = Boundary :: Write [EMPTY_LIST] :: Write [MEMOIZE] :: Write [MARK] :: snd (save_batches 0 (map B l) [i])).
  { rewrite save_list_eq. cbn [find app]. destruct l as [|s [|t l]]; [cbn in L; lia|cbn in L; lia|]. cbn [map].
    destruct (save_batches 0 (B s :: B t :: map B l) [i]) as [m e]. reflexivity. }
  assert (W : concat (chunks (snd (save (VList i (map B l)) []) ++ [Write [STOP]])) = body).
  { rewrite E, concat_chunks_app, !concat_chunks_cons, C. cbn [chunk concat app]. unfold body. rewrite <- app_assoc. reflexivity. }
  assert (SL : len (strings_in_file 0 l) < 65536).
  { unfold body in S. rewrite !len_app in S. pose proof (len_nonneg [93; 148; 40]). pose proof (len_nonneg [101; 46]). lia. }
  rewrite frames_one; rewrite ?total_concat, ?W; cbn [curlen].
  - cbn [app]. reflexivity.
  - rewrite E. assert (LA : forall a b, larges (a ++ b) = larges a + larges b).
    { induction a as [|e a IHa]; intro b; [reflexivity|]. cbn [app larges fold_right]. fold (larges (a ++ b)). fold (larges a). rewrite IHa. lia. }
    rewrite LA. change (larges [Write [STOP]]) with 0.
    match goal with |- larges (_ :: _ :: _ :: _ :: ?x) + 0 = 0 => change (larges x + 0 = 0) end. rewrite LG; [reflexivity|].
    eapply Forall_impl; [|apply (strings_longer l 0)]. cbn beta. intros t T. lia.
  - lia.
  - unfold body. rewrite !len_app. change (len [93; 148; 40]) with 3. change (len [101; 46]) with 2. pose proof (len_nonneg (strings_in_file 0 l)). lia.
Qed.
Example C90_list_ex : dumps (VList 0 [VBytes 1 [7; 8]; VBytes 2 []]) = [128; 4; 149; 13; 0; 0; 0; 0; 0; 0; 0; 93; 148; 40; 67; 2; 7; 8; 148; 67; 0; 148; 101; 46].
Proof. vm_compute. reflexivity. Qed.
Print Assumptions C90_list_bytes.

(** The opcodes, against what CPython 3.11's pickle.dumps(protocol=4) writes for
    [(), (1,), (70000, 256), (b, 1, 2), (1, 2, 3, 4), b, "a" * 300] with b = bytes([9, 8]), for bytes([5] * 300),
    and at the end of a list of 257 strings of bytes followed by the last and the third last of them. *)
Example C90_cpython_ex :
  dumps (VList 0 [VTuple 1 []; VTuple 2 [VInt 1]; VTuple 3 [VInt 70000; VInt 256]; VTuple 4 [VBytes 5 [9; 8]; VInt 1; VInt 2];
                  VTuple 6 [VInt 1; VInt 2; VInt 3; VInt 4]; VBytes 5 [9; 8]; VStr 7 (repeat 97 300)]) =
    [128; 4; 149; 94; 1; 0; 0; 0; 0; 0; 0; 93; 148; 40; 41; 75; 1; 133; 148; 74; 112; 17; 1; 0; 77; 0; 1; 134; 148; 67; 2; 9; 8; 148;
     75; 1; 75; 2; 135; 148; 40; 75; 1; 75; 2; 75; 3; 75; 4; 116; 148; 104; 3; 88; 44; 1; 0; 0] ++ repeat 97 300 ++ [148; 101; 46] /\
  dumps (VBytes 0 (repeat 5 300)) = [128; 4; 149; 51; 1; 0; 0; 0; 0; 0; 0; 66; 44; 1; 0; 0] ++ repeat 5 300 ++ [148; 46] /\
  (let b k := VBytes (S k) [Z.of_nat k mod 256; Z.of_nat k / 256] in
   let d := dumps (VList 0 (map b (seq 0 257) ++ [b 256%nat; b 254%nat])) in
   length d = 1308%nat /\ skipn 1296 d = [0; 1; 148; 106; 1; 1; 0; 0; 104; 255; 101; 46]).
Proof. vm_compute. repeat split. Qed.
