(** An executable instance of [client_run] (the sort is insertion sort), used to exhibit
    concrete executions. *)
From Verif Require Import GoBase GoUtf8 WireModel InfoerModel.
From Coq Require Import Permutation Sorted.
Local Open Scope Z_scope.

Section Sort.
  Context {A : Type} (key : A -> Z).
  Fixpoint insert (x : A) (l : list A) : list A :=
    match l with [] => [x] | y :: r => if key x <=? key y then x :: l else y :: insert x r end.
  Definition isort (l : list A) : list A := fold_right insert [] l.
  Lemma insert_perm x l : Permutation (x :: l) (insert x l).
  Proof.
    induction l as [|y l IH]; cbn; [reflexivity|]. destruct (key x <=? key y); [reflexivity|].
    rewrite perm_swap. now constructor.
  Qed.
  Lemma isort_perm l : Permutation l (isort l).
  Proof. induction l as [|x l IH]; cbn; [reflexivity|]. rewrite <- insert_perm. now constructor. Qed.
  Lemma insert_sorted x l : StronglySorted (fun a b => key a <= key b) l -> StronglySorted (fun a b => key a <= key b) (insert x l).
  Proof.
    induction l as [|y l IH]; intros H; [repeat constructor|]. cbn. inversion H as [|? ? H1 H2]; subst.
    destruct (Z.leb_spec (key x) (key y)).
    - constructor; [auto|]. constructor; [lia|]. eapply Forall_impl; [|exact H2]. cbn; intros; lia.
    - constructor; [now apply IH|]. apply (Permutation_Forall (insert_perm x l)). constructor; [lia|auto].
  Qed.
  Lemma isort_stored l x : stored key l x (isort (l ++ [x])).
  Proof.
    split; [apply isort_perm|]. induction (l ++ [x]) as [|y r IH]; cbn; [constructor|]. now apply insert_sorted.
  Qed.
End Sort.

Definition handle (s : state) (m : message) : state :=
  match m with
  | NewSongInfo f file len ly md => set_songs s (isort startIndex (songs s ++ [song_of f file len ly md]))
  | ChunkInfo t f n => set_chunks s (isort c_startIndex (chunks s ++ [{| c_startTime := t; c_startIndex := f; c_size := n |}]))
  | PauseInfo p t => set_pauses s (isort t_index (pauses s ++ [{| t_playing := p; t_index := t |}]))
  | SetVolumeRequest v => set_volume s v
  | _ => s
  end.

Lemma handle_handled s m : handled s m (handle s m).
Proof. destruct m; cbn; try (constructor; reflexivity); constructor; apply isort_stored. Qed.

Definition exec_step (sr : Z) (c : option (state * display * list info)) (e : event) : option (state * display * list info) :=
  match c with
  | None => None
  | Some (s, d, out) =>
      match e, d with
      | Handled m, _ => Some (handle s m, d, out)
      | PruneChunks now, Idle => Some (set_chunks s (remove_old_chunks sr now (chunks s)), ChunksPruned now, out)
      | ReadSample, ChunksPruned now => Some (s, HasSample now (sample_at sr now (chunks s)), out)
      | ReadSong, HasSample now x => Some (s, HasSong now x (current_song x (songs s)), out)
      | PrunePauses, HasSong now x cur =>
          Some (set_pauses s (remove_old_pauses (startIndex cur) (pauses s)), PausesPruned now x cur, out)
      | CountPauses, PausesPruned now x cur =>
          Some (s, Idle, out ++ [let '(pz, playing) := pauses_in_song x (startIndex cur) (pauses s) in
                                 make_info sr now x cur pz playing (volume s)])
      | _, _ => None
      end
  end.

Definition exec (sr : Z) (tr : list event) := fold_left (exec_step sr) tr (Some (init_state, Idle, [])).

Lemma exec_run sr tr : forall s d out, exec sr tr = Some (s, d, out) -> client_run sr tr s d out.
Proof.
  induction tr as [|e tr IH] using rev_ind; intros s d out E.
  - injection E as <- <- <-. constructor.
  - unfold exec in E. rewrite fold_left_app in E. change (fold_left (exec_step sr) tr (Some (init_state, Idle, []))) with (exec sr tr) in E.
    destruct (exec sr tr) as [[[s0 d0] out0]|] eqn:E0; [|discriminate]. specialize (IH _ _ _ eq_refl).
    cbn [fold_left exec_step] in E. destruct e; destruct d0; try discriminate; injection E as <- <- <-;
      econstructor; eauto using handle_handled.
Qed.
