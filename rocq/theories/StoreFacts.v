(** Facts about the storage layer and the market session. *)
From Verif Require Import QcTac Num ModelBase ModelMarket ModelStats SpecMarket.

Lemma add_all_trans tm l : tm_trans (add_all tm l) = tm_trans tm ++ l.
Proof.
  unfold add_all. revert tm; induction l as [|t l IH]; intro tm; simpl; [rewrite app_nil_r; reflexivity|].
  rewrite IH. simpl. rewrite <- app_assoc. reflexivity.
Qed.
Lemma add_all_n tm l : n_trans (add_all tm l) = (n_trans tm + length l)%nat.
Proof.
  unfold add_all. revert tm; induction l as [|t l IH]; intro tm; simpl; [lia|]. rewrite IH. simpl. lia.
Qed.
Lemma add_transaction_index tm t : snd (add_transaction tm t) = n_trans tm.
Proof. unfold add_transaction. simpl. lia. Qed.
Lemma tm_merge_trans a b : tm_trans (tm_merge a b) = tm_trans a ++ tm_trans b.
Proof. unfold tm_merge. rewrite !add_all_trans. reflexivity. Qed.
Lemma tm_merge_n a b : n_trans (tm_merge a b) = (length (tm_trans a) + length (tm_trans b))%nat.
Proof. unfold tm_merge. rewrite !add_all_n. reflexivity. Qed.

Lemma rows_from_length i l : length (rows_from i l) = length l.
Proof. revert i; induction l as [|b l IH]; intro i; simpl; auto. Qed.
Lemma rows_from_nth i l k b : nth_error l k = Some b -> nth_error (rows_from i l) k = Some (row_of (i + k) b).
Proof.
  revert i k; induction l as [|x l IH]; intros i [|k] H; simpl in *; try discriminate.
  - injection H as ->. rewrite Nat.add_0_r. reflexivity.
  - rewrite (IH (S i) k H). do 2 f_equal. lia.
Qed.
Lemma rows_from_lbl i l : map lbl (rows_from i l) = seq i (length l).
Proof. revert i; induction l as [|b l IH]; intro i; simpl; [reflexivity|]. f_equal. apply IH. Qed.

Lemma step_bids S sv m o :
  bm_bids (mk_bm (step S sv m o)) = bm_bids (mk_bm m) ++ accepted [o] /\
  n_bids (mk_bm (step S sv m o)) = (n_bids (mk_bm m) + length (accepted [o]))%nat.
Proof.
  destruct o; simpl.
  - split; [reflexivity | lia].
  - unfold market_run. destruct (run_algo S a (get_df (mk_bm m))) as [[t x]|e]; simpl; rewrite app_nil_r; split; auto.
  - unfold statistics. destruct (stats_loop sv m rp exclude STATS). simpl. rewrite app_nil_r; split; auto.
Qed.
Lemma session_bids S sv ops m :
  bm_bids (mk_bm (session S sv m ops)) = bm_bids (mk_bm m) ++ accepted ops /\
  n_bids (mk_bm (session S sv m ops)) = (n_bids (mk_bm m) + length (accepted ops))%nat.
Proof.
  unfold session. revert m; induction ops as [|o ops IH]; intro m; simpl.
  - rewrite app_nil_r. split; [reflexivity | lia].
  - destruct (IH (step S sv m o)) as [A B]. destruct (step_bids S sv m o) as [C D].
    rewrite A, B, C, D. simpl. rewrite app_nil_r.
    change (flat_map (fun o0 => match o0 with OAccept b => [b] | _ => [] end) ops) with (accepted ops).
    rewrite app_length, <- app_assoc. split; [reflexivity | lia].
Qed.
Lemma accepted_app a b : accepted (a ++ b) = accepted a ++ accepted b.
Proof. unfold accepted. apply flat_map_app. Qed.

Lemma session_df S sv ops : get_df (mk_bm (session S sv market_init ops)) = rows_from 0 (accepted ops).
Proof. unfold get_df. destruct (session_bids S sv ops market_init) as [-> _]. reflexivity. Qed.

Lemma accept_id S sv ops b : snd (accept_bid (session S sv market_init ops) b) = length (accepted ops).
Proof.
  unfold accept_bid, add_bid. simpl. destruct (session_bids S sv ops market_init) as [_ ->]. simpl. lia.
Qed.
Lemma accepted_row S sv ops1 b ops2 :
  nth_error (get_df (mk_bm (session S sv market_init (ops1 ++ OAccept b :: ops2)))) (length (accepted ops1)) =
  Some (mkRow (length (accepted ops1)) (b_qty b) (b_price b) (b_user b) (b_buying b) (b_time b) (b_div b)).
Proof.
  rewrite session_df, accepted_app. rewrite (rows_from_nth 0 _ _ b); [reflexivity|].
  rewrite nth_error_app2 by lia. rewrite Nat.sub_diag. reflexivity.
Qed.
Lemma accepted_length S sv ops :
  length (get_df (mk_bm (session S sv market_init ops))) = length (accepted ops).
Proof. rewrite session_df. apply rows_from_length. Qed.
