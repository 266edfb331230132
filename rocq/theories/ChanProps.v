(** Property theorems about channels: C36 (WithChannels) and C37 (shuffling).
    The vocabulary is in ChanSpec.v, the code model in ChanModel.v. *)
From Verif Require Import Prelude ChanModel ChanSpec ChanProofs.
From Coq Require Import Lia Permutation.

(** C36: the children see exactly the selected channels in list order, and
    the result is the input image in which only these are replaced. *)
Theorem C36_children_get_and_change_only_selected_channels :
  forall (A V : Type) cs (child : cbatch (A:=A) V -> res (cbatch V)) b ims b',
  cs <> [] -> b_images b = Some ims -> with_channels (Some cs) child b = Ok b' ->
  exists sels b1, Forall2 (is_selection cs) ims sels /\
    child (mkB (Some sels) (b_columns b)) = Ok b1 /\
    match b_images b1 with
    | Some augs => exists outs, b_images b' = Some outs /\
        Forall2 (fun im aug : cimg A => ch aug = ch im /\ cw aug = cw im /\ cdt aug = cdt im) ims augs /\
        Forall2 (fun p out => is_merge cs (fst p) (snd p) out) (combine ims augs) outs
    | None => b_images b' = None
    end.
Proof. exact @with_channels_images. Qed.
Print Assumptions C36_children_get_and_change_only_selected_channels.

(** C36: with channels=None everything is handed to the children. *)
Theorem C36_no_selection_means_all :
  forall (A V : Type) (child : cbatch (A:=A) V -> res (cbatch V)) b b',
  with_channels None child b = Ok b' ->
  exists b1, child b = Ok b1 /\ b_columns b' = b_columns b1 /\
    (b_images b <> None -> b_images b' = b_images b1).
Proof. exact @with_channels_none. Qed.
Print Assumptions C36_no_selection_means_all.

(** C36: an empty channel list leaves the batch alone, whatever the children. *)
Theorem C36_empty_selection_is_identity :
  forall (A V : Type) (child : cbatch (A:=A) V -> res (cbatch V)) b,
  with_channels (Some []) child b = Ok b.
Proof. exact (fun A V child b => eq_refl). Qed.
Print Assumptions C36_empty_selection_is_identity.

(** C36: a single channel number selects that channel alone, a list the
    listed ones, None all of them. *)
Theorem C36_constructor_argument :
  forall (A V : Type) arg cs (child : cbatch (A:=A) V -> res (cbatch V)) b ims b',
  (arg = ChList cs \/ exists v, arg = ChInt v /\ cs = [v]) ->
  cs <> [] -> b_images b = Some ims -> with_channels (init_channels arg) child b = Ok b' ->
  exists sels b1, Forall2 (is_selection cs) ims sels /\
    child (mkB (Some sels) (b_columns b)) = Ok b1 /\
    match b_images b1 with
    | Some augs => exists outs, b_images b' = Some outs /\
        Forall2 (fun im aug : cimg A => ch aug = ch im /\ cw aug = cw im /\ cdt aug = cdt im) ims augs /\
        Forall2 (fun p out => is_merge cs (fst p) (snd p) out) (combine ims augs) outs
    | None => b_images b' = None
    end.
Proof.
  intros A V arg cs child b ims b' H NE I W.
  apply (C36_children_get_and_change_only_selected_channels A V cs child b ims b' NE I).
  destruct H as [-> | [v [-> ->]]]; exact W.
Qed.
Print Assumptions C36_constructor_argument.
Theorem C36_constructor_argument_none : forall (A V : Type) (child : cbatch (A:=A) V -> res (cbatch V)) b b',
  with_channels (init_channels ChNone) child b = Ok b' ->
  exists b1, child b = Ok b1 /\ b_columns b' = b_columns b1 /\ (b_images b <> None -> b_images b' = b_images b1).
Proof. intros A V child b b' H. apply C36_no_selection_means_all. exact H. Qed.
Print Assumptions C36_constructor_argument_none.

(** C36, other data: a cell takes the augmented value if at least half of
    the channels of its image were selected, otherwise it stays as it was. *)
Theorem C36_other_data_follow_the_majority :
  forall (A V : Type) cs (child : cbatch (A:=A) V -> res (cbatch V)) b b',
  cs <> [] -> with_channels (Some cs) child b = Ok b' ->
  exists inner b1, child inner = Ok b1 /\ b_columns inner = b_columns b /\
    map fst (b_columns b') = map fst (b_columns b1) /\
    forall j name aug, nth_error (b_columns b1) j = Some (name, aug) ->
      exists old, lookup_column name (b_columns b) = Some old /\
      exists r, nth_error (b_columns b') j = Some (name, r) /\
        (length aug = length old ->
         length r = length old /\
         forall i d, (i < length old)%nat ->
           let n := match cell_channels (nth i old d) with Some n => n | None => 1 end in
           (n <= 2 * Z.of_nat (length cs) -> nth i r d = nth i aug d) /\
           (2 * Z.of_nat (length cs) < n -> nth i r d = nth i old d)).
Proof. exact @with_channels_cells. Qed.
Print Assumptions C36_other_data_follow_the_majority.

(** C36: no failure of its own if all listed channels exist and the children
    keep number, size and dtype of the images. *)
Theorem C36_succeeds_for_existing_channels :
  forall (A V : Type) cs (child : cbatch (A:=A) V -> res (cbatch V)) b,
  match b_images b with Some ims => Forall (fun im => exist_in (cc im) cs) ims | None => True end ->
  Forall (fun p => Forall (fun c => cell_channels c <> Some 0) (snd p)) (b_columns b) ->
  (forall inner, wc_keeps inner (child inner)) ->
  exists b', with_channels (Some cs) child b = Ok b'.
Proof. exact @with_channels_total. Qed.
Print Assumptions C36_succeeds_for_existing_channels.

(** C36: a listed channel that some image lacks raises before the children
    are run. *)
Theorem C36_missing_channel_raises :
  forall (A V : Type) cs (child : cbatch (A:=A) V -> res (cbatch V)) b ims,
  cs <> [] -> b_images b = Some ims -> Exists (fun im => ~ exist_in (cc im) cs) ims ->
  with_channels (Some cs) child b = Err IndexError.
Proof. exact @with_channels_missing. Qed.
Print Assumptions C36_missing_channel_raises.

(** Two images of 3 channels, selection [2; -3] (the third and the first
    channel), children that add 100; the first heatmap has 3 channels. *)
Definition ex_im (o : Z) : cimg Z := mkC 1 2 3 8 (fun y x c => o + 10 * x + c).
Definition ex_add (b : cbatch (A:=Z) Z) : res (cbatch Z) :=
  Ok (mkB (option_map (map (fun im => mkC (ch im) (cw im) (cc im) (cdt im)
                                         (fun y x c => cpx im y x c + 100))) (b_images b))
          (map (fun p => (fst p, map (fun c => mkCell (cell_channels c) (cell_value c + 1)) (snd p))) (b_columns b))).
Definition ex_batch : cbatch (A:=Z) Z :=
  mkB (Some [ex_im 0; ex_im 50]) [(7, [mkCell (Some 3) 5; mkCell (Some 5) 6])].
Example C36_example : exists o1 o2, with_channels (Some [2; -3]) ex_add ex_batch =
    Ok (mkB (Some [o1; o2]) [(7, [mkCell (Some 3) 6; mkCell (Some 5) 6])]) /\
  map (cpx o1 0 1) [0; 1; 2] = [110; 11; 112] /\ map (cpx o2 0 0) [0; 1; 2] = [150; 51; 152].
Proof. eexists; eexists. split; [reflexivity|]. split; reflexivity. Qed.
Example C36_example_hypotheses :
  Forall (fun im => exist_in (cc im) [2; -3]) [ex_im 0; ex_im 50] /\
  (forall inner, wc_keeps inner (ex_add inner)).
Proof.
  split.
  - repeat constructor; cbn; [exists 2 | exists 0 | exists 2 | exists 0]; unfold denotes; lia.
  - intros inner. eexists. split; [reflexivity|]. split.
    + cbn. rewrite map_map. reflexivity.
    + cbn. destruct (b_images inner) as [l|]; cbn; [|exact I].
      induction l; constructor; cbn; tauto.
Qed.
Example C36_example_missing : with_channels (Some [3]) ex_add ex_batch = Err IndexError.
Proof. reflexivity. Qed.
Example C36_example_missing_hypothesis : ~ exist_in (cc (ex_im 0)) [3].
Proof. intros H. inversion H as [|? ? (c & Hc) _]; subst. unfold denotes in Hc. cbn in Hc. lia. Qed.

(** C37: shuffling a list of existing channels without repetition reorders
    the channels; those not listed stay, and the k-th listed one shows the
    k-th of the drawn permutation. *)
Theorem C37_only_listed_channels_move :
  forall (A : Type) (permute : list Z -> list Z) cs (im : cimg A),
  (forall l, Permutation l (permute l)) -> 2 <= cc im ->
  exist_in (cc im) cs -> no_channel_twice (cc im) cs -> covers_all (cc im) (Some cs) = false ->
  exists out s, shuffle_channels false permute (Some cs) im = Ok out /\ reordered s im out /\
    (forall c, 0 <= c < cc im -> ~ selected (cc im) cs c -> s c = c) /\
    (forall k c c', (k < length cs)%nat -> denotes (cc im) (nth k cs 0) c ->
       denotes (cc im) (nth k (permute cs) 0) c' -> s c = c').
Proof. exact @shuffle_listed. Qed.
Print Assumptions C37_only_listed_channels_move.

(** C37: without a list, or with one that names every channel, the channels
    are reordered by the drawn permutation. *)
Theorem C37_all_channels_permuted :
  forall (A : Type) (permute : list Z -> list Z) channels (im : cimg A),
  (forall l, Permutation l (permute l)) -> 2 <= cc im ->
  match channels with None => True | Some cs => forall c, 0 <= c < cc im -> In c cs end ->
  exists out s, shuffle_channels false permute channels im = Ok out /\ reordered s im out /\
    forall k, (k < Z.to_nat (cc im))%nat -> s (Z.of_nat k) = nth k (permute (all_channels (cc im))) 0.
Proof.
  exact (fun A permute channels im Hp Hn H => shuffle_all permute channels im Hp Hn
    (match channels as ch0 return
       (match ch0 with None => True | Some cs => forall c, 0 <= c < cc im -> In c cs end ->
        covers_all (cc im) ch0 = true)
     with None => fun _ => eq_refl | Some cs => proj2 (covers_all_iff (cc im) cs) end H)).
Qed.
Print Assumptions C37_all_channels_permuted.

(** C37: images without a channel axis or with one channel are unchanged. *)
Theorem C37_single_channel_unchanged :
  forall (A : Type) permute channels (im : cimg A) nd2, nd2 = true \/ cc im = 1 ->
  shuffle_channels nd2 permute channels im = Ok im.
Proof. exact @shuffle_trivial. Qed.
Print Assumptions C37_single_channel_unchanged.

(** C37: listing a channel that does not exist raises (unless the list names
    all existing ones too). *)
Theorem C37_missing_channel_raises :
  forall (A : Type) permute cs (im : cimg A), (forall l, Permutation l (permute l)) ->
  2 <= cc im -> ~ (forall c, 0 <= c < cc im -> In c cs) -> ~ exist_in (cc im) cs ->
  shuffle_channels false permute (Some cs) im = Err IndexError.
Proof. exact @shuffle_missing. Qed.
Print Assumptions C37_missing_channel_raises.

(** C37: the augmenter shuffles exactly the images whose sample says so. *)
Theorem C37_augmenter_shuffles_per_image :
  forall (A : Type) permute channels ps (ims : list (cimg A)) i outs, length ps = length ims ->
  channel_shuffle permute channels i ps ims = Ok outs ->
  length outs = length ims /\
  forall k d, (k < length ims)%nat ->
    ((9999 # 10000 <= nth k ps 0)%Q -> shuffle_channels false (permute (i + k)%nat) channels (nth k ims d) = Ok (nth k outs d)) /\
    ((nth k ps 0 < 9999 # 10000)%Q -> nth k outs d = nth k ims d).
Proof. exact @channel_shuffle_spec. Qed.
Print Assumptions C37_augmenter_shuffles_per_image.

(** C37 fails if a channel is listed twice: channel 1 is lost. *)
Theorem C37_repeated_channel_refuted :
  exists (permute : list Z -> list Z) (im : cimg Z) cs out,
    (forall l, Permutation l (permute l)) /\ exist_in (cc im) cs /\
    shuffle_channels false permute (Some cs) im = Ok out /\
    (exists c, 0 <= c < cc im /\ forall c', 0 <= c' < cc out -> cpx out 0 0 c' <> cpx im 0 0 c).
Proof.
  exists (@rev Z), (mkC 1 1 3 8 (fun y x c => c)), [0; 0; 1]. eexists.
  split; [apply Permutation_rev|]. split.
  - repeat constructor; [exists 0 | exists 0 | exists 1]; unfold denotes; cbn; lia.
  - split; [reflexivity|]. exists 1. split; [cbn; lia|]. cbn [cc cpx]. intros c' Hc'.
    assert (c' = 0 \/ c' = 1 \/ c' = 2) as [-> | [-> | ->]] by (cbn in Hc'; lia); vm_compute; discriminate.
Qed.
Print Assumptions C37_repeated_channel_refuted.

(** Channels 0 and -1 of four, drawn in reverse order. *)
Example C37_example : exists out,
  shuffle_channels false (@rev Z) (Some [0; -1]) (mkC 1 1 4 8 (fun y x c => c)) = Ok out /\
  map (cpx out 0 0) [0; 1; 2; 3] = [3; 1; 2; 0].
Proof. eexists. split; reflexivity. Qed.
Example C37_example_hypotheses : let n := 4 in
  exist_in n [0; -1] /\ no_channel_twice n [0; -1] /\ covers_all n (Some [0; -1]) = false.
Proof.
  split; [|split].
  - repeat constructor; [exists 0 | exists 3]; unfold denotes; lia.
  - intros i j c Hi Hj H1 H2. cbn in Hi, Hj.
    destruct i as [|[|i]], j as [|[|j]]; unfold denotes in *; cbn in *; lia.
  - reflexivity.
Qed.
Example C37_example_all : exists out,
  shuffle_channels false (@rev Z) None (mkC 1 1 3 8 (fun y x c => c)) = Ok out /\
  map (cpx out 0 0) [0; 1; 2] = [2; 1; 0].
Proof. eexists. split; reflexivity. Qed.
Example C37_example_augmenter : exists o1 o2,
  channel_shuffle (fun _ => @rev Z) None 0 [1#1; 0#1]%Q [mkC 1 1 2 8 (fun y x c => c); mkC 1 1 2 8 (fun y x c => c)] = Ok [o1; o2] /\
  map (cpx o1 0 0) [0; 1] = [1; 0] /\ map (cpx o2 0 0) [0; 1] = [0; 1].
Proof. eexists. eexists. split; [reflexivity|]. split; reflexivity. Qed.
