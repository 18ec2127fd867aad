(** * A tree in memory, taken apart at a path *)

From Coq Require Import ZArith List Bool String Lia.
From Coq Require Import Strings.Byte.
From Verif Require Import Machine Io Types Build Read Iff Spec Lemmas IoProofs SoundProofs
  Heap HeapSpec HeapProofs HeapBuildProofs HeapReadProofs HeapAddProofs HeapReachProofs.
Import ListNotations.
Open Scope Z_scope.

(** Same blocks, each as often *)
Definition same_blocks (F G : list addr) : Prop := forall x, cnt F x = cnt G x.

Lemma same_refl : forall F, same_blocks F F.
Proof. intros F x. reflexivity. Qed.
Lemma same_sym : forall F G, same_blocks F G -> same_blocks G F.
Proof. intros F G S x. symmetry. apply S. Qed.
Lemma same_trans : forall F G K, same_blocks F G -> same_blocks G K -> same_blocks F K.
Proof. intros F G K S1 S2 x. rewrite (S1 x). apply S2. Qed.
Lemma same_in : forall F G x, same_blocks F G -> In x F <-> In x G.
Proof. intros F G x S. rewrite !in_cnt, (S x). reflexivity. Qed.
Lemma same_nodup : forall F G, same_blocks F G -> NoDup F <-> NoDup G.
Proof. intros F G S. rewrite !nodup_cnt. split; intros N x; specialize (N x); specialize (S x); lia. Qed.
Lemma same_becomes : forall h h' F F' G G', becomes h h' F F' -> same_blocks F G -> same_blocks F' G' -> becomes h h' G G'.
Proof. intros h h' F F' G G' B S S'. apply (becomes_equiv _ _ F F'); [exact B| |]; intro x; apply same_in; assumption. Qed.

(** [same]: count occurrences on both sides *)
Ltac same := let x := fresh "x" in intro x;
  repeat match goal with S : same_blocks _ _ |- _ => generalize (S x); clear S end; intros;
  rewrite ?cnt_app, ?cnt_cons, ?cnt_nil in *; rewrite ?cnt_app, ?cnt_cons, ?cnt_nil; lia.

Lemma nth_replace_len : forall A (l : list A) n x, List.length (replace_nth n x l) = List.length l.
Proof. intros. apply length_replace_nth. Qed.

(** The [n]-th of a row of trees *)
Lemma trees_split : forall one l p la F n c, trees_at one l p la F -> nth_error l n = Some c ->
  exists a F1 G, nth_error la n = Some a /\ one c p a F1 /\ same_blocks F (F1 ++ G) /\
    forall (one' : chunk -> ptr -> addr -> list addr -> Prop) c' F1', one' c' p a F1' -> (forall x b Fx, In x l -> incl Fx G -> one x p b Fx -> one' x p b Fx) ->
      exists F', trees_at one' (replace_nth n c' l) p la F' /\ same_blocks F' (F1' ++ G).
Proof.
  intros one. induction l as [|y r IH]; intros p la F n c T E; [destruct n; discriminate E|].
  destruct la as [|b rb]; [destruct T|]. cbn [trees_at] in T. destruct T as (Fy & Fr & Oy & Tr & ->).
  destruct n as [|n]; cbn [nth_error] in E.
  - injection E as ->. exists b, Fy, Fr. split; [reflexivity|]. split; [exact Oy|]. split; [same|].
    intros one' c' F1' O' K. cbn [replace_nth trees_at]. exists (F1' ++ Fr). split; [|same].
    exists F1', Fr. split; [exact O'|]. split; [|reflexivity]. apply (trees_mono one); [|exact Tr].
    intros x d Fx I J. apply K; [right; exact I|exact J].
  - destruct (IH p rb Fr n c Tr E) as (a & F1 & G & N & O & S & K). exists a, F1, (Fy ++ G).
    split; [exact N|]. split; [exact O|]. split; [same|].
    intros one' c' F1' O' KK. destruct (K one' c' F1' O') as (F' & T' & S').
    { intros x d Fx I J. apply KK; [right; exact I|]. intros z Z. apply in_or_app. right. exact (J z Z). }
    cbn [replace_nth trees_at]. exists (Fy ++ F'). split; [|same].
    exists Fy, F'. split; [|split; [exact T'|reflexivity]].
    apply KK; [left; reflexivity| |exact Oy]. intros z Z. apply in_or_app. left. exact Z.
Qed.

Lemma array_element : forall h arr la Fa n b, array_at h arr la Fa -> nth_error la n = Some b ->
  element_is h arr (List.length la) n b.
Proof.
  intros h arr la Fa n b [(-> & -> & ->)|(d & -> & L & ->)] N; [destruct n; discriminate N|].
  exists d, la. split; [reflexivity|]. split; [exact L|]. split; [|exact N]. apply nth_error_Some. congruence.
Qed.

Lemma element_array : forall h arr la Fa n b, array_at h arr la Fa -> element_is h arr (List.length la) n b ->
  nth_error la n = Some b.
Proof.
  intros h arr la Fa n b A (d & l & E & L & _ & N). destruct A as [(-> & _ & _)|(d' & -> & L' & _)]; [discriminate E|].
  injection E as ->. rewrite L in L'. injection L' as ->. exact N.
Qed.

(** One step down *)
Lemma child_split : forall h c p a F s y, tree_at h c p a F -> get_child c s = Some y ->
  exists b F1 G, child_is h a s b /\ tree_at h y (Some a) b F1 /\ same_blocks F (F1 ++ G) /\ In a G /\
    forall h' y' F1', tree_at h' y' (Some a) b F1' -> (forall x, In x G -> lookup h' x = lookup h x) ->
      exists F', tree_at h' (set_child c s y') p a F' /\ same_blocks F' (F1' ++ G).
Proof.
  intros h c p a F s y T E.
  destruct s as [n|n]; destruct c as [i z d|i z g l|i z g ps l|i z v]; cbn [get_child] in E; try discriminate E; cbn [tree_at] in T.
  - destruct T as (arr & la & Fa & Fl & parr & pa & Fb & Fp & L & A & TT & PA & TP & ->).
    destruct (trees_split _ _ _ _ _ _ _ TP E) as (b & F1 & G & N & O & S & K).
    exists b, F1, (a :: (Fa ++ Fl) ++ (Fb ++ G)). split.
    { eexists. eexists. split; [exact L|]. exact (array_element _ _ _ _ _ _ PA N). }
    split; [exact O|]. split; [same|]. split; [left; reflexivity|].
    intros h' y' F1' T' KK. destruct (K (tree_at h') y' F1' T') as (F' & TP' & S').
    { intros x d Fx I J TX. apply (tree_frame h); [exact TX|]. intros u U. apply KK. right. apply in_or_app. right. apply in_or_app. right. exact (J u U). }
    exists (a :: (Fa ++ Fl) ++ (Fb ++ F')). split; [|same]. cbn [set_child tree_at]. exists arr, la, Fa, Fl, parr, pa, Fb, F'.
    split; [rewrite KK; [exact L|left; reflexivity]|].
    split; [apply (array_frame h); [exact A|]; intros u U; apply KK; right; rewrite !in_app_iff; tauto|].
    split; [apply (trees_frame h); [exact TT|]; intros u U; apply KK; right; rewrite !in_app_iff; tauto|].
    split; [apply (array_frame h); [exact PA|]; intros u U; apply KK; right; rewrite !in_app_iff; tauto|].
    split; [exact TP'|reflexivity].
  - destruct T as (arr & la & Fa & Fl & L & A & TT & ->).
    destruct (trees_split _ _ _ _ _ _ _ TT E) as (b & F1 & G & N & O & S & K).
    exists b, F1, (a :: Fa ++ G). split.
    { eexists. eexists. split; [exact L|]. exact (array_element _ _ _ _ _ _ A N). }
    split; [exact O|]. split; [same|]. split; [left; reflexivity|].
    intros h' y' F1' T' KK. destruct (K (tree_at h') y' F1' T') as (F' & TP' & S').
    { intros x d Fx I J TX. apply (tree_frame h); [exact TX|]. intros u U. apply KK. right. apply in_or_app. right. exact (J u U). }
    exists (a :: Fa ++ F'). split; [|same]. cbn [set_child tree_at]. exists arr, la, Fa, F'.
    split; [rewrite KK; [exact L|left; reflexivity]|].
    split; [apply (array_frame h); [exact A|]; intros u U; apply KK; right; rewrite !in_app_iff; tauto|].
    split; [exact TP'|reflexivity].
  - destruct T as (arr & la & Fa & Fl & parr & pa & Fb & Fp & L & A & TT & PA & TP & ->).
    destruct (trees_split _ _ _ _ _ _ _ TT E) as (b & F1 & G & N & O & S & K).
    exists b, F1, (a :: (Fa ++ G) ++ (Fb ++ Fp)). split.
    { eexists. eexists. split; [exact L|]. exact (array_element _ _ _ _ _ _ A N). }
    split; [exact O|]. split; [same|]. split; [left; reflexivity|].
    intros h' y' F1' T' KK. destruct (K (tree_at h') y' F1' T') as (F' & TP' & S').
    { intros x d Fx I J TX. apply (tree_frame h); [exact TX|]. intros u U. apply KK. right. apply in_or_app. left. apply in_or_app. right. exact (J u U). }
    exists (a :: (Fa ++ F') ++ (Fb ++ Fp)). split; [|same]. cbn [set_child tree_at]. exists arr, la, Fa, F', parr, pa, Fb, Fp.
    split; [rewrite KK; [exact L|left; reflexivity]|].
    split; [apply (array_frame h); [exact A|]; intros u U; apply KK; right; rewrite !in_app_iff; tauto|].
    split; [exact TP'|].
    split; [apply (array_frame h); [exact PA|]; intros u U; apply KK; right; rewrite !in_app_iff; tauto|].
    split; [apply (trees_frame h); [exact TP|]; intros u U; apply KK; right; rewrite !in_app_iff; tauto|reflexivity].
Qed.

(** Down a whole path: the chunk there, the blocks around it, and what the
    tree becomes when the chunk there changes. *)
Theorem path_split : forall q h c p a F y, tree_at h c p a F -> at_path c q = Some y ->
  exists b pb F1 G, Leads h a q b /\ tree_at h y pb b F1 /\ same_blocks F (F1 ++ G) /\
    (q = [] -> b = a /\ pb = p /\ G = []) /\
    forall h' y' F1', tree_at h' y' pb b F1' -> (forall x, In x G -> lookup h' x = lookup h x) ->
      exists F', tree_at h' (replace_at c q y') p a F' /\ same_blocks F' (F1' ++ G).
Proof.
  induction q as [|s q IH]; intros h c p a F y T E; cbn [at_path] in E.
  - injection E as ->. exists a, p, F, []. split; [constructor|]. split; [exact T|]. split; [same|]. split; [tauto|].
    intros h' y' F1' T' _. exists F1'. split; [exact T'|same].
  - destruct (get_child c s) as [x|] eqn:GC; [|discriminate E].
    destruct (child_split _ _ _ _ _ _ _ T GC) as (b & F1 & G & CI & T1 & S1 & IA & K1).
    destruct (IH h x (Some a) b F1 y T1 E) as (b2 & pb & F2 & G2 & LD & T2 & S2 & _ & K2).
    exists b2, pb, F2, (G2 ++ G). split; [econstructor; eassumption|]. split; [exact T2|]. split; [same|].
    split; [discriminate|].
    intros h' y' F1' T' KK. destruct (K2 h' y' F1' T') as (F' & T3 & S3); [intros u U; apply KK, in_or_app; left; exact U|].
    destruct (K1 h' (replace_at x q y') F' T3) as (F'' & T4 & S4); [intros u U; apply KK, in_or_app; right; exact U|].
    exists F''. cbn [replace_at]. rewrite GC. split; [exact T4|same].
Qed.

Lemma child_det : forall h a s b b', child_is h a s b -> child_is h a s b' -> b = b'.
Proof.
  intros h a s b b' (hd & bd & L & M) (hd' & bd' & L' & M'). rewrite L in L'. injection L' as <- <-.
  destruct s as [n|n]; destruct bd as [d|g m arr|g m arr pm parr|v]; try contradiction;
  destruct M as (d & l & -> & LD & _ & N); destruct M' as (d' & l' & E & LD' & _ & N'); injection E as <-; rewrite LD in LD'; injection LD' as <-; congruence.
Qed.

Lemma Leads_det : forall h a q b b', Leads h a q b -> Leads h a q b' -> b = b'.
Proof.
  intros h a q b b' L. revert b'. induction L as [a|a s b q c CI L IH]; intros b' L'.
  - inversion L'. reflexivity.
  - inversion L' as [|a' s' b'' q' c' CI' L'']; subst. rewrite (child_det _ _ _ _ _ CI' CI) in L''. exact (IH _ L'').
Qed.

Lemma child_member : forall h a s b, child_is h a s b -> has_member h a b.
Proof.
  intros h a s b (hd & bd & L & M). exists hd, bd. split; [exact L|].
  destruct s as [n|n]; destruct bd as [d|g m arr|g m arr pm parr|v]; try contradiction;
  destruct M as (d & l & -> & LD & LT & N); [right| |left]; exists d, l, n; auto.
Qed.

Lemma Leads_reaches : forall h a q b, Leads h a q b -> Reaches h a b.
Proof.
  intros h a q b L. induction L as [a|a s b q c CI L IH]; [constructor|].
  apply (Reaches_trans _ _ b); [|exact IH]. econstructor; [constructor|]. exact (child_member _ _ _ _ CI).
Qed.

Lemma Leads_path : forall q h c p a F b, tree_at h c p a F -> Leads h a q b -> exists y, at_path c q = Some y.
Proof.
  induction q as [|s q IH]; intros h c p a F b T L; [exists c; reflexivity|].
  inversion L as [|a' s' b' q' c' CI L']; subst. destruct CI as (hd & bd & LA & M). cbn [at_path].
  assert (X : exists y, get_child c s = Some y).
  { destruct c as [i z d|i z g l|i z g ps l|i z v]; cbn [tree_at] in T.
    - destruct T as (x & size & L2 & _). rewrite L2 in LA. injection LA as <- <-. destruct s; contradiction.
    - destruct T as (arr & la & Fa & Fl & L2 & A & TT & _). rewrite L2 in LA. injection LA as <- <-. destruct s as [n|n]; [contradiction|].
      pose proof (element_array _ _ _ _ _ _ A M) as N. cbn [get_child]. destruct (nth_error l n) as [y|] eqn:E; [eauto|].
      apply nth_error_None in E. assert (n < List.length la)%nat by (apply nth_error_Some; congruence). rewrite (trees_length _ _ _ _ _ TT) in *. lia.
    - destruct T as (arr & la & Fa & Fl & parr & pa & Fb & Fp & L2 & A & TT & PA & TP & _). rewrite L2 in LA. injection LA as <- <-. destruct s as [n|n].
      + pose proof (element_array _ _ _ _ _ _ PA M) as N. cbn [get_child]. destruct (nth_error ps n) as [y|] eqn:E; [eauto|].
        apply nth_error_None in E. assert (n < List.length pa)%nat by (apply nth_error_Some; congruence). rewrite (trees_length _ _ _ _ _ TP) in *. lia.
      + pose proof (element_array _ _ _ _ _ _ A M) as N. cbn [get_child]. destruct (nth_error l n) as [y|] eqn:E; [eauto|].
        apply nth_error_None in E. assert (n < List.length la)%nat by (apply nth_error_Some; congruence). rewrite (trees_length _ _ _ _ _ TT) in *. lia.
    - destruct T as (L2 & _). rewrite L2 in LA. injection LA as <- <-. destruct s; contradiction. }
  destruct X as (y & GC). rewrite GC. destruct (child_split _ _ _ _ _ _ _ T GC) as (b2 & F1 & G & CI2 & T1 & _).
  rewrite (child_det h a s b' b2) in L'; [|exists hd, bd; split; assumption|exact CI2]. exact (IH _ _ _ _ _ _ T1 L').
Qed.
