(** What dynamic multi-head attention with relative positions computes. *)
From Coq Require Import List ZArith Bool Lia.
From Verif Require Import Prelude Attention_Model Attention_Lemmas.
From Verif Require Dynamic_Model.
Import ListNotations.
Local Open Scope nat_scope.

(** ** Specification: attention with relative positions, entry by entry *)
Section Spec.
  Variable A : Type.
  Variables (zero : A) (add mul : A -> A -> A).
  Variable softmax : list A -> list A.
  Notation sum := (total A zero add).

  (** A projected token. *)
  Definition projected (n : nat) (w : nat -> nat -> A) (bias : option (nat -> A)) (x : nat -> nat -> nat -> A) (b i c : nat) : A :=
    match bias with
    | None => sum n (fun y => mul (x b i y) (w c y))
    | Some bs => add (sum n (fun y => mul (x b i y) (w c y))) (bs c)
    end.

  Section Heads.
    Variables (N dh : nat) (scale : A) (Rk Rv : option (nat -> nat -> nat -> A)) (Q K V : nat -> nat -> nat -> A).
    (** Head h owns the channels h*dh .. h*dh+dh-1. *)
    Definition logit (b h i j : nat) : A :=
      let content := mul (sum dh (fun t => mul (Q b i (h * dh + t)) (K b j (h * dh + t)))) scale in
      match Rk with
      | None => content
      | Some r => add content (mul (sum dh (fun t => mul (Q b i (h * dh + t)) (r i j t))) scale)
      end.
    Definition weight (b h i j : nat) : A := nth j (softmax (map (logit b h i) (seq 0 N))) zero.
    Definition context (b i c : nat) : A :=
      let h := c / dh in
      let content := sum N (fun j => mul (weight b h i j) (V b j c)) in
      match Rv with
      | None => content
      | Some r => add content (sum N (fun j => mul (weight b h i j) (r i j (c mod dh))))
      end.
  End Heads.
End Spec.

(** Patch i (counted from 0) of an image of n patches lies in row i / s and column i mod s, s the integer square root of n.
    The table entry for a pair of patches whose coordinates are a and b: entry mx+1 for equal coordinates, one further for
    every step of b away from a, saturating at 1 and 2*mx+1.  Entry 0 is used for the class token, token 0. *)
Definition bucket (mx a b : nat) : nat :=
  if b + mx <? a then 1 else if a + mx <? b then 2 * mx + 1 else mx + 1 + b - a.
Definition row_entry (mx n i j : nat) : nat :=
  match i, j with S i, S j => bucket mx (i / Nat.sqrt n) (j / Nat.sqrt n) | _, _ => 0 end.
Definition col_entry (mx n i j : nat) : nat :=
  match i, j with S i, S j => bucket mx (i mod Nat.sqrt n) (j mod Nat.sqrt n) | _, _ => 0 end.

Lemma clip_bucket : forall mx a b, clip mx (Z.of_nat b - Z.of_nat a) = Z.of_nat (bucket mx a b).
Proof.
  intros mx a b. unfold clip, bucket. destruct (Nat.ltb_spec (b + mx) a); [lia|]. destruct (Nat.ltb_spec (a + mx) b); lia.
Qed.
Lemma bucket_range : forall mx a b, 1 <= bucket mx a b <= 2 * mx + 1.
Proof. intros mx a b. unfold bucket. destruct (Nat.ltb_spec (b + mx) a); [lia|]. destruct (Nat.ltb_spec (a + mx) b); lia. Qed.
Lemma sqrt_nat : forall n, Z.sqrt (Z.of_nat n) = Z.of_nat (Nat.sqrt n).
Proof.
  intros n. apply Z.sqrt_unique. pose proof (Nat.sqrt_spec n (Nat.le_0_l n)) as (H1 & H2). split; nia.
Qed.
Lemma distances_nth : forall mx (coord : Z -> Z) (c : nat -> nat) lq lk i j,
  (forall x, coord (Z.of_nat x) = Z.of_nat (c x)) -> i < lq -> j < lk ->
  lookup2 (distances mx coord lq lk) i j = Z.of_nat (bucket mx (c i) (c j)).
Proof.
  intros mx coord c lq lk i j Hc Hi Hj. unfold lookup2, distances.
  set (F := fun i0 : nat => map (fun j0 : nat => clip mx (coord (Z.of_nat j0) - coord (Z.of_nat i0))) (seq 0 lk)).
  rewrite (nth_indep _ [] (F 0)) by (rewrite map_length, seq_length; exact Hi). rewrite map_nth, seq_nth by exact Hi. unfold F.
  set (G := fun j0 : nat => clip mx (coord (Z.of_nat j0) - coord (Z.of_nat (0 + i)))).
  rewrite (nth_indep _ 0%Z (G 0)) by (rewrite map_length, seq_length; exact Hj). rewrite map_nth, seq_nth by exact Hj. unfold G.
  rewrite !Nat.add_0_l, !Hc. apply clip_bucket.
Qed.
Lemma pad_nth : forall m lq lk i j, length m = lq -> i < S lq -> j < S lk ->
  lookup2 (pad m lk) i j = match i, j with S i, S j => lookup2 m i j | _, _ => 0%Z end.
Proof.
  intros m lq lk i j Hm Hi Hj. unfold lookup2, pad. destruct i as [|i].
  - cbn [nth]. assert (E : forall n k, nth k (repeat 0%Z n) 0%Z = 0%Z) by (induction n; intros [|k]; cbn; auto). apply E.
  - cbn [nth]. rewrite (nth_indep _ [] (cons 0%Z [])) by (rewrite map_length; lia). rewrite map_nth.
    destruct j as [|j]; [reflexivity|]. reflexivity.
Qed.
Lemma distances_in : forall mx coord (c : nat -> nat) lq lk rows, (forall x, coord (Z.of_nat x) = Z.of_nat (c x)) -> 2 * mx + 2 <= rows ->
  in_rows rows (pad (distances mx coord lq lk) lk) = true.
Proof.
  intros mx coord c lq lk rows Hc Hr. unfold in_rows. apply forallb_forall. intros r Hin. apply forallb_forall. intros z Hz.
  assert (R : (0 <= z <= Z.of_nat (2 * mx + 1))%Z).
  { destruct Hin as [<-|Hin].
    - apply repeat_spec in Hz. lia.
    - apply in_map_iff in Hin as (r' & <- & Hin). destruct Hz as [<-|Hz]; [lia|].
      unfold distances in Hin. apply in_map_iff in Hin as (i & <- & _). apply in_map_iff in Hz as (j & <- & _).
      rewrite !Hc, clip_bucket. pose proof (bucket_range mx (c i) (c j)). lia. }
  apply andb_true_intro. split; [apply Z.leb_le | apply Z.ltb_lt]; lia.
Qed.
Lemma final_row : forall mx lq lk i j, i < S lq -> j < S lk -> lookup2 (fst (final_mats mx lq lk)) i j = Z.of_nat (row_entry mx lq i j).
Proof.
  intros mx lq lk i j Hi Hj. unfold final_mats. cbn [fst]. rewrite (pad_nth _ lq) by (auto; unfold distances; now rewrite map_length, seq_length).
  destruct i as [|i]; [reflexivity|]. destruct j as [|j]; [reflexivity|]. cbn [row_entry].
  apply (distances_nth mx _ (fun x => x / Nat.sqrt lq)); [|lia|lia]. intros x. unfold side. rewrite sqrt_nat. now rewrite Nat2Z.inj_div.
Qed.
Lemma final_col : forall mx lq lk i j, i < S lq -> j < S lk -> lookup2 (snd (final_mats mx lq lk)) i j = Z.of_nat (col_entry mx lq i j).
Proof.
  intros mx lq lk i j Hi Hj. unfold final_mats. cbn [snd]. rewrite (pad_nth _ lq) by (auto; unfold distances; now rewrite map_length, seq_length).
  destruct i as [|i]; [reflexivity|]. destruct j as [|j]; [reflexivity|]. cbn [col_entry].
  apply (distances_nth mx _ (fun x => x mod Nat.sqrt lq)); [|lia|lia]. intros x. unfold side. rewrite sqrt_nat. now rewrite Nat2Z.inj_mod.
Qed.
Lemma nth_firstn : forall {X} (l : list X) n k d, k < n -> nth k (firstn n l) d = nth k l d.
Proof. intros X l. induction l as [|x l IH]; intros [|n] [|k] d H; cbn; auto; try lia. apply IH. lia. Qed.
Lemma numel3 : forall a b c, numel [a; b; c] = a * b * c.
Proof. intros. cbn. lia. Qed.
Lemma numel4 : forall a b c d, numel [a; b; c; d] = a * b * c * d.
Proof. intros. cbn. lia. Qed.
Lemma flat3 : forall a b c i j k, flat [a; b; c] [i; j; k] = (i * b + j) * c + k.
Proof. intros. cbn. nia. Qed.
Lemma flat4 : forall a b c d i j k l, flat [a; b; c; d] [i; j; k; l] = ((i * b + j) * c + k) * d + l.
Proof. intros. cbn. nia. Qed.


Section Proofs.
  Variable A : Type.
  Variables (zero : A) (add mul : A -> A -> A).
  Variable softmax : list A -> list A.
  Notation tab2 := (tab2 A zero).
  Notation tab3 := (tab3 A zero).
  Notation tab4 := (tab4 A zero).
  Notation at_ := (at_ A zero).
  Notation total := (total A zero add).
  Notation reshape := (reshape A).
  Notation reshape_infer := (reshape_infer A).
  Notation data := (data A).

  Lemma shape3 : forall a b c f, shape A (tab3 a b c f) = [a; b; c].
  Proof. reflexivity. Qed.
  Lemma shape4 : forall a b c d f, shape A (tab4 a b c d f) = [a; b; c; d].
  Proof. reflexivity. Qed.
  (** (B, N, H*dh) -> (B, N, H, dh). *)
  Lemma split_heads : forall B N H dh f,
    reshape [B; N; H; dh] (tab3 B N (H * dh) f) = Ok (tab4 B N H dh (fun b n h t => f b n (h * dh + t))).
  Proof.
    intros B N H dh f. unfold Attention_Model.reshape. rewrite ?shape3.
    rewrite numel3, numel4. replace (B * N * H * dh =? B * N * (H * dh)) with true by (symmetry; apply Nat.eqb_eq; lia).
    f_equal. unfold Attention_Model.tab3, Attention_Model.tab4.
    rewrite (reshape_tab A zero [B; N; H * dh] [B; N; H; dh] _ (fun idx => match idx with [b; n; h; t] => [b; n; h * dh + t] | _ => [] end)).
    - apply tab_ext. intros [|b [|n [|h [|t [|]]]]] Hi; simpl in Hi; first [reflexivity | tauto].
    - rewrite numel3, numel4. lia.
    - intros [|b [|n [|h [|t [|]]]]] Hi; simpl in Hi; try tauto. destruct Hi as (Hb & Hn & Hh & Ht & _).
      split; [simpl; repeat split; auto; nia |]. rewrite flat3, flat4. nia.
  Qed.
  Lemma infer : forall s t k, numel s <> 0 -> numel (shape A t) = numel s * k -> reshape_infer s t = Ok (T A (s ++ [k]) (data t)).
  Proof.
    intros s t k Hs E. unfold Attention_Model.reshape_infer. apply Nat.eqb_neq in Hs as Hs'. rewrite Hs', E.
    rewrite (Nat.mul_comm (numel s) k), Nat.mod_mul by exact Hs. cbn. rewrite Nat.div_mul by exact Hs. reflexivity.
  Qed.
  (** (B, N, H, dh) -> (B, N, -1). *)
  Lemma merge_heads : forall B N H dh f, B <> 0 -> N <> 0 ->
    reshape_infer [B; N] (tab4 B N H dh f) = Ok (tab3 B N (H * dh) (fun b n c => f b n (c / dh) (c mod dh))).
  Proof.
    intros B N H dh f HB HN. rewrite (infer [B; N] _ (H * dh)).
    - f_equal. cbn [app]. unfold Attention_Model.tab3, Attention_Model.tab4.
      rewrite (reshape_tab A zero [B; N; H; dh] [B; N; H * dh] _ (fun idx => match idx with [b; n; c] => [b; n; c / dh; c mod dh] | _ => [] end)).
      + apply tab_ext. intros [|b [|n [|c [|]]]] Hi; simpl in Hi; first [reflexivity | tauto].
      + rewrite numel3, numel4. lia.
      + intros [|b [|n [|c [|]]]] Hi; simpl in Hi; try tauto. destruct Hi as (Hb & Hn & Hc & _).
        assert (Hd : dh <> 0) by nia. pose proof (Nat.div_mod c dh Hd) as E. pose proof (Nat.mod_upper_bound c dh Hd) as M.
        assert (Hq : c / dh < H) by (apply Nat.div_lt_upper_bound; [exact Hd | lia]).
        split; [simpl; auto |]. rewrite flat3, flat4. nia.
    - cbn. lia.
    - rewrite ?shape4. rewrite numel4. cbn. lia.
  Qed.
  (** (N, B, H, d) -> (N, H*B, -1): the rows are the pairs (image, head). *)
  Lemma merge_images : forall N B H d f p, p = B * H -> N <> 0 -> B <> 0 -> H <> 0 ->
    reshape_infer [N; p] (tab4 N B H d f) = Ok (tab3 N (B * H) d (fun n r t => f n (r / H) (r mod H) t)).
  Proof.
    intros N B H d f p -> HN HB HH. rewrite (infer [N; B * H] _ d).
    - f_equal. cbn [app]. unfold Attention_Model.tab3, Attention_Model.tab4.
      rewrite (reshape_tab A zero [N; B; H; d] [N; B * H; d] _ (fun idx => match idx with [n; r; t] => [n; r / H; r mod H; t] | _ => [] end)).
      + apply tab_ext. intros [|n [|r [|t [|]]]] Hi; simpl in Hi; first [reflexivity | tauto].
      + rewrite numel3, numel4. lia.
      + intros [|n [|r [|t [|]]]] Hi; simpl in Hi; try tauto. destruct Hi as (Hn & Hr & Ht & _).
        pose proof (Nat.div_mod r H HH) as E. pose proof (Nat.mod_upper_bound r H HH) as M.
        assert (Hq : r / H < B) by (apply Nat.div_lt_upper_bound; [exact HH | lia]).
        split; [simpl; auto |]. rewrite flat3, flat4. nia.
    - cbn. nia.
    - rewrite ?shape4. rewrite numel4. cbn. nia.
  Qed.
  (** (B*H, N, d) -> (B, H, N, d). *)
  Lemma split_images_data : forall B H N d f, 
    T A [B; H; N; d] (data (tab3 (B * H) N d f)) = tab4 B H N d (fun b h n t => f (b * H + h) n t).
  Proof.
    intros B H N d f. unfold Attention_Model.tab3, Attention_Model.tab4.
    rewrite (reshape_tab A zero [B * H; N; d] [B; H; N; d] _ (fun idx => match idx with [b; h; n; t] => [b * H + h; n; t] | _ => [] end)).
    - apply tab_ext. intros [|b [|h [|n [|t [|]]]]] Hi; simpl in Hi; first [reflexivity | tauto].
    - rewrite numel3, numel4. lia.
    - intros [|b [|h [|n [|t [|]]]]] Hi; simpl in Hi; try tauto. destruct Hi as (Hb & Hh & Hn & Ht & _).
      split; [simpl; repeat split; auto; nia |]. rewrite flat3, flat4. nia.
  Qed.
  Lemma split_images : forall B H N d f, reshape [B; H; N; d] (tab3 (B * H) N d f) = Ok (tab4 B H N d (fun b h n t => f (b * H + h) n t)).
  Proof.
    intros B H N d f. unfold Attention_Model.reshape. rewrite ?shape3. rewrite numel3, numel4, Nat.eqb_refl.
    f_equal. apply split_images_data.
  Qed.
  Lemma split_images_infer : forall B H N d f, B <> 0 -> H <> 0 -> N <> 0 ->
    reshape_infer [B; H; N] (tab3 (B * H) N d f) = Ok (tab4 B H N d (fun b h n t => f (b * H + h) n t)).
  Proof.
    intros B H N d f HB HH HN. rewrite (infer [B; H; N] _ d).
    - f_equal. apply split_images_data.
    - cbn. nia.
    - rewrite ?shape3. rewrite numel3. cbn. nia.
  Qed.
  Lemma transpose12_tab : forall a b c d f, transpose12 A zero (tab4 a b c d f) = Ok (tab4 a c b d (fun i j k l => f i k j l)).
  Proof.
    intros a b c d f. unfold transpose12. rewrite ?shape4. cbv beta iota. f_equal. apply tab4_ext. intros i j k l Hi Hj Hk Hl.
    now rewrite at_tab4.
  Qed.
  Lemma transpose_last4 : forall a b c d f, transpose_last A zero (tab4 a b c d f) = Ok (tab4 a b d c (fun i j k l => f i j l k)).
  Proof.
    intros a b c d f. unfold transpose_last. rewrite ?shape4. cbv beta iota. f_equal. apply tab4_ext. intros i j k l Hi Hj Hk Hl.
    now rewrite at_tab4.
  Qed.
  Lemma transpose_last3 : forall a b c f, transpose_last A zero (tab3 a b c f) = Ok (tab3 a c b (fun i j k => f i k j)).
  Proof.
    intros a b c f. unfold transpose_last. rewrite ?shape3. cbv beta iota. f_equal. apply tab3_ext. intros i j k Hi Hj Hk.
    now rewrite at_tab3.
  Qed.
  Lemma transpose10_tab : forall a b c f, transpose10 A zero (tab3 a b c f) = Ok (tab3 b a c (fun i j k => f j i k)).
  Proof.
    intros a b c f. unfold transpose10. rewrite ?shape3. cbv beta iota. f_equal. apply tab3_ext. intros i j k Hi Hj Hk.
    now rewrite at_tab3.
  Qed.
  Lemma permute_tab : forall a b c d f, permute2013 A zero (tab4 a b c d f) = Ok (tab4 c a b d (fun i j k l => f j k i l)).
  Proof.
    intros a b c d f. unfold permute2013. rewrite ?shape4. cbv beta iota. f_equal. apply tab4_ext. intros i j k l Hi Hj Hk Hl.
    now rewrite at_tab4.
  Qed.
  Lemma matmul3 : forall a n k m f g, matmul A zero add mul (tab3 a n k f) (tab3 a k m g) =
    Ok (tab3 a n m (fun i r c => total k (fun x => mul (f i r x) (g i x c)))).
  Proof.
    intros a n k m f g. unfold matmul. rewrite !shape3. cbv beta iota. rewrite !Nat.eqb_refl. cbn [andb]. f_equal.
    apply tab3_ext. intros i r c Hi Hr Hc. apply total_ext. intros x Hx. now rewrite !at_tab3.
  Qed.
  Lemma matmul4 : forall a b n k m f g, matmul A zero add mul (tab4 a b n k f) (tab4 a b k m g) =
    Ok (tab4 a b n m (fun i j r c => total k (fun x => mul (f i j r x) (g i j x c)))).
  Proof.
    intros a b n k m f g. unfold matmul. rewrite !shape4. cbv beta iota. rewrite !Nat.eqb_refl. cbn [andb]. f_equal.
    apply tab4_ext. intros i j r c Hi Hj Hr Hc. apply total_ext. intros x Hx. now rewrite !at_tab4.
  Qed.
  Lemma combine_map2 : forall {X Y Z W} (f : X -> Y) (g : X -> Z) (h : Y * Z -> W) l,
    map h (combine (map f l) (map g l)) = map (fun x => h (f x, g x)) l.
  Proof. intros X Y Z W f g h l. induction l as [|x l IH]; [reflexivity|]. cbn. now rewrite IH. Qed.
  Lemma tadd4 : forall a b c d f g, tadd A add (tab4 a b c d f) (tab4 a b c d g) = Ok (tab4 a b c d (fun i j k l => add (f i j k l) (g i j k l))).
  Proof.
    intros a b c d f g. unfold tadd. rewrite !shape4. rewrite same_shape_refl. f_equal.
    unfold Attention_Model.tab4, tabulate. f_equal. cbn [Attention_Model.data]. rewrite combine_map2. apply map_ext_in. intros idx Hi. apply in_indices in Hi.
    destruct idx as [|i [|j [|k [|l [|]]]]]; simpl in Hi; first [reflexivity | tauto].
  Qed.
  Lemma tadd3 : forall a b c f g, tadd A add (tab3 a b c f) (tab3 a b c g) = Ok (tab3 a b c (fun i j k => add (f i j k) (g i j k))).
  Proof.
    intros a b c f g. unfold tadd. rewrite !shape3. rewrite same_shape_refl. f_equal.
    unfold Attention_Model.tab3, tabulate. f_equal. cbn [Attention_Model.data]. rewrite combine_map2. apply map_ext_in. intros idx Hi. apply in_indices in Hi.
    destruct idx as [|i [|j [|k [|]]]]; simpl in Hi; first [reflexivity | tauto].
  Qed.
  Lemma tscale4 : forall s a b c d f, tscale A mul s (tab4 a b c d f) = tab4 a b c d (fun i j k l => mul (f i j k l) s).
  Proof.
    intros s a b c d f. unfold tscale, Attention_Model.tab4, tabulate. cbn [shape data]. f_equal. rewrite map_map. apply map_ext_in.
    intros idx Hi. apply in_indices in Hi. destruct idx as [|i [|j [|k [|l [|]]]]]; simpl in Hi; first [reflexivity | tauto].
  Qed.
  Lemma softmax_tab : forall a b c d f, softmax_last A zero softmax (tab4 a b c d f) =
    Ok (tab4 a b c d (fun i j k l => nth l (softmax (map (f i j k) (seq 0 d))) zero)).
  Proof.
    intros a b c d f. unfold softmax_last. rewrite ?shape4. cbv beta iota. f_equal. apply tab4_ext. intros i j k l Hi Hj Hk Hl.
    do 2 f_equal. apply map_ext_in. intros x Hx. apply in_seq in Hx. rewrite at_tab4; [reflexivity | auto; lia ..].
  Qed.

  Lemma attend_spec : forall B N H dh scale (rel : option ((nat -> nat -> nat -> A) * (nat -> nat -> nat -> A))) Q K V,
    B <> 0 -> N <> 0 -> H <> 0 ->
    attend A zero add mul softmax B N H dh scale
      (match rel with Some (rk, rv) => Some (Ok (tab3 N N dh rk), Ok (tab3 N N dh rv)) | None => None end)
      (tab3 B N (H * dh) Q) (tab3 B N (H * dh) K) (tab3 B N (H * dh) V) =
    Ok (tab3 B N (H * dh) (context A zero add mul softmax N dh scale (option_map fst rel) (option_map snd rel) Q K V)).
  Proof.
    intros B N H dh scale rel Q K V HB HN HH. unfold attend.
    rewrite !split_heads. cbn [bind]. rewrite !transpose12_tab. cbn [bind]. rewrite transpose_last4. cbn [bind].
    rewrite matmul4. cbn [bind]. rewrite tscale4.
    destruct rel as [(rk, rv)|]; cbn [bind option_map fst snd].
    - rewrite permute_tab. cbn [bind]. rewrite (merge_images N B H dh) by (auto; lia). cbn [bind]. rewrite transpose_last3. cbn [bind].
      rewrite matmul3. cbn [bind]. rewrite transpose10_tab. cbn [bind]. rewrite split_images. cbn [bind]. rewrite tscale4, tadd4. cbn [bind].
      rewrite softmax_tab. cbn [bind]. rewrite matmul4. cbn [bind]. rewrite transpose12_tab. cbn [bind].
      rewrite merge_heads by assumption. cbn [bind]. rewrite permute_tab. cbn [bind]. rewrite (merge_images N B H N) by (auto; lia). cbn [bind].
      rewrite matmul3. cbn [bind]. rewrite transpose10_tab. cbn [bind]. rewrite split_images_infer by assumption. cbn [bind].
      rewrite transpose12_tab. cbn [bind]. rewrite merge_heads by assumption. cbn [bind]. rewrite tadd3. f_equal.
      apply tab3_ext. intros b i c Hb Hi Hc. unfold context, weight.
      assert (Hd : dh <> 0) by nia. pose proof (Nat.div_mod c dh Hd) as E. pose proof (Nat.mod_upper_bound c dh Hd) as M.
      assert (Hq : c / dh < H) by (apply Nat.div_lt_upper_bound; [exact Hd | lia]).
      assert (P1 : forall b h, h < H -> (b * H + h) / H = b) by (intros b' h Hh; rewrite Nat.add_comm, Nat.div_add, Nat.div_small by (auto; lia); lia).
      assert (P2 : forall b h, h < H -> (b * H + h) mod H = h) by (intros b' h Hh; rewrite Nat.add_comm, Nat.mod_add, Nat.mod_small by (auto; lia); lia).
      assert (L : forall j, In j (seq 0 N) ->
        add (mul (total dh (fun x => mul (Q b i (c / dh * dh + x)) (K b j (c / dh * dh + x)))) scale)
            (mul (total dh (fun x => mul (Q ((b * H + c / dh) / H) i ((b * H + c / dh) mod H * dh + x)) (rk i j x))) scale) =
        logit A zero add mul dh scale (Some rk) Q K b (c / dh) i j).
      { intros j Hj. unfold logit. rewrite P1, P2 by exact Hq. reflexivity. }
      f_equal.
      + apply total_ext. intros j Hj. f_equal.
        * do 2 f_equal. apply map_ext_in. exact L.
        * f_equal. lia.
      + apply total_ext. intros j Hj. f_equal. rewrite P1, P2 by exact Hq. do 2 f_equal. apply map_ext_in. intros j' Hj'.
        rewrite <- (L j' Hj'). rewrite P1, P2 by exact Hq. reflexivity.
    - rewrite softmax_tab. cbn [bind]. rewrite matmul4. cbn [bind]. rewrite transpose12_tab. cbn [bind].
      rewrite merge_heads by assumption. cbn [bind]. f_equal.
      apply tab3_ext. intros b i c Hb Hi Hc. unfold context, weight.
      assert (Hd : dh <> 0) by nia. pose proof (Nat.div_mod c dh Hd) as E.
      apply total_ext. intros j Hj. f_equal. f_equal. lia.
  Qed.

  (** ** Relative positions *)
  (** The embedding of a pair of tokens, from two tables. *)
  Definition embedding (tv th : nat -> nat -> A) (mx n i j t : nat) : A := add (tv (row_entry mx n i j) t) (th (col_entry mx n i j) t).
  Definition table_ok (mx d : nat) (t : tensor A) : Prop := exists rows, shape A t = [rows; d] /\ 2 * mx + 2 <= rows.
  Definition entry (t : tensor A) (i j : nat) : A := at_ t [i; j].

  Lemma relpos_spec : forall r lq lk d, table_ok (r_max A r) d (r_v A r) -> table_ok (r_max A r) d (r_h A r) ->
    relpos_forward A zero add r (S lq) (S lk) =
    Ok (tab3 (S lq) (S lk) d (embedding (entry (r_v A r)) (entry (r_h A r)) (r_max A r) lq)).
  Proof.
    intros r lq lk d (rv & Ev & Hv) (rh & Eh & Hh). unfold relpos_forward.
    pose proof (final_row (r_max A r) lq lk) as FR. pose proof (final_col (r_max A r) lq lk) as FC.
    assert (IV : in_rows rv (fst (final_mats (r_max A r) lq lk)) = true).
    { unfold final_mats. cbn [fst]. apply (distances_in _ _ (fun x => x / Nat.sqrt lq)); [|exact Hv].
      intros x. unfold side. rewrite sqrt_nat. now rewrite Nat2Z.inj_div. }
    assert (IH : in_rows rh (snd (final_mats (r_max A r) lq lk)) = true).
    { unfold final_mats. cbn [snd]. apply (distances_in _ _ (fun x => x mod Nat.sqrt lq)); [|exact Hh].
      intros x. unfold side. rewrite sqrt_nat. now rewrite Nat2Z.inj_mod. }
    destruct (final_mats (r_max A r) lq lk) as [fv fh]. cbn [fst snd] in *. rewrite Ev, Eh, IV, IH, Nat.eqb_refl. cbn [andb]. f_equal.
    apply tab3_ext. intros i j t Hi Hj Ht. rewrite (FR i j Hi Hj), (FC i j Hi Hj), !Nat2Z.id. reflexivity.
  Qed.

  (** ** The dynamic module *)
  Definition covers (o i : nat) (w : lin A) : Prop :=
    exists r c, shape A (l_w A w) = [r; c] /\ o <= r /\ i <= c /\ match l_b A w with None => True | Some b => length b = r end.
  Definition bias_of (w : lin A) : option (nat -> A) := option_map (fun l c => nth c l zero) (l_b A w).
  Lemma linear_spec : forall B N o i w xf, covers o i w ->
    linear A zero add mul (tab3 B N i xf) (l_w A (sliced A zero o i w)) (l_b A (sliced A zero o i w)) =
    Ok (tab3 B N o (projected A zero add mul i (entry (l_w A w)) (bias_of w) xf)).
  Proof.
    intros B N o i w xf (r & c & E & Ho & Hi & Hb). unfold linear. rewrite shape3. unfold sliced, narrow. cbn [l_w l_b]. rewrite E.
    rewrite (Nat.min_l o r), (Nat.min_l i c) by assumption. change (shape A (tab2 o i (fun x y => at_ (l_w A w) [x; y]))) with [o; i]. cbv beta iota.
    rewrite Nat.eqb_refl. unfold bias_of, projected. destruct (l_b A w) as [b|]; cbn [option_map].
    - unfold narrow1. rewrite firstn_length, Hb, Nat.min_l, Nat.eqb_refl by assumption. f_equal. apply tab3_ext. intros p q s Hp Hq Hs.
      rewrite nth_firstn by exact Hs. f_equal. apply total_ext. intros y Hy. rewrite at_tab3, at_tab2 by assumption. reflexivity.
    - f_equal. apply tab3_ext. intros p q s Hp Hq Hs. apply total_ext. intros y Hy. rewrite at_tab3, at_tab2 by assumption. reflexivity.
  Qed.
  Definition dtable_ok (dh : nat) (r : drelpos A) : Prop :=
    exists c dv dh', d_head A r = Some c /\ activated c = dh /\ dh <= dv /\ dh <= dh' /\
      table_ok (r_max A (d_pos A r)) dv (r_v A (d_pos A r)) /\ table_ok (r_max A (d_pos A r)) dh' (r_h A (d_pos A r)).
  Definition demb (r : drelpos A) (n : nat) : nat -> nat -> nat -> A :=
    embedding (entry (r_v A (d_pos A r))) (entry (r_h A (d_pos A r))) (r_max A (d_pos A r)) n.

  Lemma drelpos_spec : forall r lq lk dh, dtable_ok dh r ->
    drelpos_forward A zero add r (S lq) (S lk) = Ok (tab3 (S lq) (S lk) dh (demb r lq)).
  Proof.
    intros r lq lk dh (c & dv & dh' & Ec & <- & Hv & Hh & (rv & Sv & Rv) & (rh & Sh & Rh)). unfold drelpos_forward. rewrite Ec. cbn [get_attr bind].
    assert (N1 : r_v A (narrow_tables A zero (activated c) (d_pos A r)) = tab2 rv (activated c) (fun x y => at_ (r_v A (d_pos A r)) [x; y])).
    { unfold narrow_tables. cbn [r_v]. rewrite Sv. unfold narrow. rewrite Sv. now rewrite Nat.min_id, (Nat.min_l (activated c) dv). }
    assert (N2 : r_h A (narrow_tables A zero (activated c) (d_pos A r)) = tab2 rh (activated c) (fun x y => at_ (r_h A (d_pos A r)) [x; y])).
    { unfold narrow_tables. cbn [r_h]. rewrite Sh. unfold narrow. rewrite Sh. now rewrite Nat.min_id, (Nat.min_l (activated c) dh'). }
    rewrite (relpos_spec _ lq lk (activated c)).
    - f_equal. apply tab3_ext. intros i j t Hi Hj Ht. unfold demb, embedding, entry. rewrite N1, N2.
      change (r_max A (narrow_tables A zero (activated c) (d_pos A r))) with (r_max A (d_pos A r)).
      pose proof (bucket_range (r_max A (d_pos A r))) as BR.
      f_equal.
      + apply at_tab2; [|exact Ht]. unfold row_entry. destruct i as [|i]; [lia|]. destruct j as [|j]; [lia|].
        specialize (BR (i / Nat.sqrt lq) (j / Nat.sqrt lq)). lia.
      + apply at_tab2; [|exact Ht]. unfold col_entry. destruct i as [|i]; [lia|]. destruct j as [|j]; [lia|].
        specialize (BR (i mod Nat.sqrt lq) (j mod Nat.sqrt lq)). lia.
    - rewrite N1. exists rv. split; [reflexivity | exact Rv].
    - rewrite N2. exists rh. split; [reflexivity | exact Rh].
  Qed.

  (** The module is consistent: the mutables are registered, the selected widths exist in the weights, the selected query
      width is num_heads heads of width dh and the relative-position tables select dh columns. *)
  Definition fits (m : dmha A) (E H dh : nat) : Prop :=
    (exists e, d_embed_mut A m = Some e /\ activated e = E) /\
    (exists q, d_q_mut A m = Some q /\ activated q = H * dh) /\
    (exists h, d_heads_mut A m = Some h /\ v_choice h = H) /\ H <> 0 /\
    covers (H * dh) E (d_q A m) /\ covers (H * dh) E (d_k A m) /\ covers (H * dh) E (d_v A m) /\ covers E (H * dh) (d_proj A m) /\
    match d_rel A m with None => True | Some (rk, rv) => dtable_ok dh rk /\ dtable_ok dh rv end.
  Definition output (m : dmha A) (E H dh N : nat) (x : nat -> nat -> nat -> A) : nat -> nat -> nat -> A :=
    let pr w := projected A zero add mul E (entry (l_w A w)) (bias_of w) x in
    let y := context A zero add mul softmax N dh (d_scale A m)
               (option_map (fun r => demb (fst r) (N - 1)) (d_rel A m)) (option_map (fun r => demb (snd r) (N - 1)) (d_rel A m))
               (pr (d_q A m)) (pr (d_k A m)) (pr (d_v A m)) in
    projected A zero add mul (H * dh) (entry (l_w A (d_proj A m))) (bias_of (d_proj A m)) y.

  Lemma forward_spec : forall m x B N E H dh, fits m E H dh -> wf A x -> shape A x = [B; N; E] -> B <> 0 -> N <> 0 ->
    dynamic_forward A zero add mul softmax m x =
    Ok (tab3 B N E (output m E H dh N (fun b i c => at_ x [b; i; c]))).
  Proof.
    intros m x B N E H dh ((e & Ee & He) & (q & Eq & Hq) & (h & Eh & Hh) & HH & Cq & Ck & Cv & Cp & Cr) W Sx HB HN.
    unfold dynamic_forward. rewrite Sx. unfold qkv_params, proj_params. rewrite Ee, Eq, Eh. cbn [get_attr bind].
    rewrite Hh. apply Nat.eqb_neq in HH as HH'. rewrite HH'. rewrite He, Hq.
    pose proof (wf_tab3 A zero x B N E W Sx) as Ex. set (xf := fun b i c => at_ x [b; i; c]) in *. clearbody xf. rewrite Ex. clear Ex W Sx x.
    rewrite !linear_spec by assumption. cbn [bind].
    rewrite (Nat.mul_comm H dh), Nat.div_mul by exact HH. rewrite (Nat.mul_comm dh H).
    destruct N as [|n]; [contradiction|].
    set (PQ := projected _ _ _ _ _ _ _ _). set (PK := projected _ _ _ _ _ _ (bias_of (d_k A m)) _). set (PV := projected _ _ _ _ _ _ (bias_of (d_v A m)) _).
    assert (EA : attend A zero add mul softmax B (S n) H dh (d_scale A m)
              (match d_rel A m with Some (rk, rv) => Some (drelpos_forward A zero add rk (S n) (S n), drelpos_forward A zero add rv (S n) (S n)) | None => None end)
              (tab3 B (S n) (H * dh) PQ) (tab3 B (S n) (H * dh) PK) (tab3 B (S n) (H * dh) PV) =
            Ok (tab3 B (S n) (H * dh) (context A zero add mul softmax (S n) dh (d_scale A m)
               (option_map (fun r => demb (fst r) n) (d_rel A m)) (option_map (fun r => demb (snd r) n) (d_rel A m)) PQ PK PV))).
    { destruct (d_rel A m) as [(rk, rv)|].
      - destruct Cr as (C1 & C2). rewrite (drelpos_spec rk n n dh C1), (drelpos_spec rv n n dh C2). cbn [option_map fst snd].
        apply (attend_spec B (S n) H dh (d_scale A m) (Some (demb rk n, demb rv n)) PQ PK PV); auto.
      - cbn [option_map]. apply (attend_spec B (S n) H dh (d_scale A m) None PQ PK PV); auto. }
    rewrite EA. cbn [bind]. rewrite linear_spec by exact Cp. unfold output. rewrite Nat.sub_succ, Nat.sub_0_r. reflexivity.
  Qed.
End Proofs.

(** * C145 *)
(** The forward of the dynamic module computes, for every image, relative-position attention with the selected heads on the
    leading rows and columns of the weights. *)
Theorem C145_forward : forall A zero add mul softmax (m : dmha A) x B N E H dh,
  fits A m E H dh -> wf A x -> shape A x = [B; N; E] -> B <> 0 -> N <> 0 ->
  dynamic_forward A zero add mul softmax m x =
  Ok (tab3 A zero B N E (output A zero add mul softmax m E H dh N (fun b i c => at_ A zero x [b; i; c]))).
Proof. exact forward_spec. Qed.

(** What a batch has besides an image does not matter to the image. *)
Theorem C145_images : forall A zero add mul softmax (m : dmha A) x x' B B' N E H dh b b' y y',
  fits A m E H dh -> wf A x -> wf A x' -> shape A x = [B; N; E] -> shape A x' = [B'; N; E] -> b < B -> b' < B' ->
  (forall i c, i < N -> c < E -> at_ A zero x [b; i; c] = at_ A zero x' [b'; i; c]) ->
  dynamic_forward A zero add mul softmax m x = Ok y -> dynamic_forward A zero add mul softmax m x' = Ok y' ->
  forall i c, i < N -> c < E -> at_ A zero y [b; i; c] = at_ A zero y' [b'; i; c].
Proof.
  intros A zero add mul softmax m x x' B B' N E H dh b b' y y' F W W' Sx Sx' Hb Hb' EX Y Y' i c Hi Hc.
  rewrite (C145_forward A zero add mul softmax m x B N E H dh) in Y by (auto; lia). apply Ok_inj in Y. subst y.
  rewrite (C145_forward A zero add mul softmax m x' B' N E H dh) in Y' by (auto; lia). apply Ok_inj in Y'. subst y'.
  rewrite !at_tab3 by assumption.
  assert (P : forall w i k, i < N -> projected A zero add mul E (entry A zero (l_w A w)) (bias_of A zero w) (fun b i c => at_ A zero x [b; i; c]) b i k =
                    projected A zero add mul E (entry A zero (l_w A w)) (bias_of A zero w) (fun b i c => at_ A zero x' [b; i; c]) b' i k).
  { intros w i0 k Hi0. unfold projected. destruct (bias_of A zero w); [f_equal|]; apply total_ext; intros z Hz; now rewrite EX. }
  unfold output.
  assert (Cx : forall k, context A zero add mul softmax N dh (d_scale A m)
      (option_map (fun r => demb A zero add (fst r) (N - 1)) (d_rel A m)) (option_map (fun r => demb A zero add (snd r) (N - 1)) (d_rel A m))
      (projected A zero add mul E (entry A zero (l_w A (d_q A m))) (bias_of A zero (d_q A m)) (fun b i c => at_ A zero x [b; i; c]))
      (projected A zero add mul E (entry A zero (l_w A (d_k A m))) (bias_of A zero (d_k A m)) (fun b i c => at_ A zero x [b; i; c]))
      (projected A zero add mul E (entry A zero (l_w A (d_v A m))) (bias_of A zero (d_v A m)) (fun b i c => at_ A zero x [b; i; c])) b i k =
    context A zero add mul softmax N dh (d_scale A m)
      (option_map (fun r => demb A zero add (fst r) (N - 1)) (d_rel A m)) (option_map (fun r => demb A zero add (snd r) (N - 1)) (d_rel A m))
      (projected A zero add mul E (entry A zero (l_w A (d_q A m))) (bias_of A zero (d_q A m)) (fun b i c => at_ A zero x' [b; i; c]))
      (projected A zero add mul E (entry A zero (l_w A (d_k A m))) (bias_of A zero (d_k A m)) (fun b i c => at_ A zero x' [b; i; c]))
      (projected A zero add mul E (entry A zero (l_w A (d_v A m))) (bias_of A zero (d_v A m)) (fun b i c => at_ A zero x' [b; i; c])) b' i k).
  { intros k. unfold context, weight.
    set (L := map _ (seq 0 N)). set (L' := map (logit A zero add mul dh (d_scale A m) _ _ _ b' (k / dh) i) (seq 0 N)).
    assert (EL : L = L').
    { apply map_ext_in. intros j Hj. apply in_seq in Hj. unfold logit.
      assert (E1 : total A zero add dh (fun t => mul (projected A zero add mul E (entry A zero (l_w A (d_q A m))) (bias_of A zero (d_q A m)) (fun b i c => at_ A zero x [b; i; c]) b i (k / dh * dh + t))
                        (projected A zero add mul E (entry A zero (l_w A (d_k A m))) (bias_of A zero (d_k A m)) (fun b i c => at_ A zero x [b; i; c]) b j (k / dh * dh + t))) =
                   total A zero add dh (fun t => mul (projected A zero add mul E (entry A zero (l_w A (d_q A m))) (bias_of A zero (d_q A m)) (fun b i c => at_ A zero x' [b; i; c]) b' i (k / dh * dh + t))
                        (projected A zero add mul E (entry A zero (l_w A (d_k A m))) (bias_of A zero (d_k A m)) (fun b i c => at_ A zero x' [b; i; c]) b' j (k / dh * dh + t)))).
      { apply total_ext. intros t Ht. now rewrite !P by lia. }
      rewrite E1. destruct (option_map (fun r => demb A zero add (fst r) (N - 1)) (d_rel A m)) as [r|]; [|reflexivity].
      do 2 f_equal. apply total_ext. intros t Ht. now rewrite !P by lia. }
    rewrite EL. assert (E2 : total A zero add N (fun j => mul (nth j (softmax L') zero) (projected A zero add mul E (entry A zero (l_w A (d_v A m))) (bias_of A zero (d_v A m)) (fun b i c => at_ A zero x [b; i; c]) b j k)) =
        total A zero add N (fun j => mul (nth j (softmax L') zero) (projected A zero add mul E (entry A zero (l_w A (d_v A m))) (bias_of A zero (d_v A m)) (fun b i c => at_ A zero x' [b; i; c]) b' j k))).
    { apply total_ext. intros j Hj. now rewrite P. }
    rewrite E2. reflexivity. }
  set (C1 := context _ _ _ _ _ _ _ _ _ _ _ _ _) in *. clearbody C1. set (C2 := context _ _ _ _ _ _ _ _ _ _ _ _ _) in *. clearbody C2.
  unfold projected. destruct (bias_of A zero (d_proj A m)); [f_equal|]; apply total_ext; intros z Hz; now rewrite Cx.
Qed.

(** A number of heads that does not divide the selected query width is an error at run time; registration does not see it. *)
Theorem C145_heads : forall A zero add mul softmax (m : dmha A) x B N e q h,
  d_embed_mut A m = Some e -> d_q_mut A m = Some q -> d_heads_mut A m = Some h -> v_choice h <> 0 ->
  activated q mod v_choice h <> 0 -> wf A x -> shape A x = [B; N; activated e] -> B <> 0 -> N <> 0 ->
  covers A (activated q) (activated e) (d_q A m) -> covers A (activated q) (activated e) (d_k A m) -> covers A (activated q) (activated e) (d_v A m) ->
  dynamic_forward A zero add mul softmax m x = Raise RuntimeError.
Proof.
  intros A zero add mul softmax m x B N e q h Ee Eq Eh HH Hm W Sx HB HN Cq Ck Cv. unfold dynamic_forward. rewrite Sx.
  unfold qkv_params. rewrite Ee, Eq, Eh. cbn [get_attr bind]. rewrite (wf_tab3 A zero x _ _ _ W Sx). rewrite !linear_spec by assumption.
  cbn [bind]. apply Nat.eqb_neq in HH as HH'. rewrite HH'. unfold attend, reshape. rewrite shape3. rewrite numel3, numel4.
  replace (B * N * v_choice h * (activated q / v_choice h) =? B * N * activated q) with false; [reflexivity|].
  symmetry. apply Nat.eqb_neq. intros X. pose proof (Nat.div_mod (activated q) (v_choice h) HH) as D. rewrite D in X at 2.
  assert (B * N <> 0) by nia. nia.
Qed.

(** * C146 *)
(** Tables of 2*mx+2 rows are never read outside, and the pair of tokens (i, j) gets the entries of their distances. *)
Theorem C146_embedding : forall A zero add (r : relpos A) lq lk d,
  table_ok A (r_max A r) d (r_v A r) -> table_ok A (r_max A r) d (r_h A r) ->
  relpos_forward A zero add r (S lq) (S lk) =
  Ok (tab3 A zero (S lq) (S lk) d (embedding A add (entry A zero (r_v A r)) (entry A zero (r_h A r)) (r_max A r) lq)).
Proof. exact relpos_spec. Qed.
(** The dynamic tables give the leading columns. *)
Theorem C146_dynamic : forall A zero add (r : drelpos A) lq lk dh, dtable_ok A dh r ->
  drelpos_forward A zero add r (S lq) (S lk) = Ok (tab3 A zero (S lq) (S lk) dh (demb A zero add r lq)).
Proof. intros A zero add. exact (drelpos_spec A zero add add). Qed.
(** On a square grid of s*s patches, the token of the patch in row r and column c is 1 + r*s + c; its entries for the token of
    (r', c') are those of r'-r and c'-c. *)
Theorem C146_square : forall mx s r c r' c', r < s -> c < s -> r' < s -> c' < s ->
  row_entry mx (s * s) (1 + r * s + c) (1 + r' * s + c') = bucket mx r r' /\
  col_entry mx (s * s) (1 + r * s + c) (1 + r' * s + c') = bucket mx c c'.
Proof.
  intros mx s r c r' c' Hr Hc Hr' Hc'. unfold row_entry, col_entry. rewrite Nat.sqrt_square. cbn [Nat.add].
  assert (P1 : forall a b, b < s -> (a * s + b) / s = a) by (intros a b Hb; rewrite Nat.add_comm, Nat.div_add, Nat.div_small by lia; lia).
  assert (P2 : forall a b, b < s -> (a * s + b) mod s = b) by (intros a b Hb; rewrite Nat.add_comm, Nat.mod_add, Nat.mod_small by lia; lia).
  now rewrite !P1, !P2.
Qed.
(** Different distances up to mx have different entries, none of them the class token's. *)
Theorem C146_injective : forall mx a b a' b',
  a <= b + mx -> b <= a + mx -> a' <= b' + mx -> b' <= a' + mx ->
  (bucket mx a b = bucket mx a' b' <-> b + a' = b' + a) /\ bucket mx a b <> 0.
Proof.
  intros mx a b a' b' H1 H2 H3 H4. unfold bucket.
  destruct (Nat.ltb_spec (b + mx) a); [lia|]. destruct (Nat.ltb_spec (a + mx) b); [lia|].
  destruct (Nat.ltb_spec (b' + mx) a'); [lia|]. destruct (Nat.ltb_spec (a' + mx) b'); [lia|]. lia.
Qed.
