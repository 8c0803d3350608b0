{
 "claims": [
  {
   "property": "C01",
   "status": "proved",
   "theorems": [
    "C01_insert_song",
    "C01_add_song"
   ],
   "note": "InsertSong/AddSong at slice level, every index, never panics."
  },
  {
   "property": "C02",
   "status": "partial",
   "theorems": [
    "C02_remove_song_partial",
    "C02_remove_song_refuted"
   ],
   "note": "All indices except i = len of a non-empty playlist, where the code panics for every playlist (C02_remove_song_refuted). Defect: RemoveSong tests len < index instead of len <= index."
  },
  {
   "property": "C03",
   "status": "proved",
   "theorems": [
    "C03_histories_refine_list",
    "C03_spec_deterministic"
   ],
   "note": "Refinement of every edit history that avoids the i = len removal to list edits; the list specification is shown functional."
  },
  {
   "property": "C04",
   "status": "proved",
   "theorems": [
    "C04_cyclic_order",
    "C04_loop_goes_on"
   ],
   "note": "Every schedule of the loop with pauses, no jumps or edits; unplayable songs are filtered out of the cyclic order. Song names are non-empty. Loop steps are modelled atomically (position updates are not split into read and write)."
  },
  {
   "property": "C05",
   "status": "partial",
   "theorems": [
    "C05_jump_target_partial",
    "C05_jump_crash_exact",
    "C05_jump_refuted"
   ],
   "note": "Proved for p >= 0. For negative p that is not a multiple of the length the loop goroutine panics (exact characterisation and a run)."
  },
  {
   "property": "C06",
   "status": "partial",
   "theorems": [
    "C06_single_jump_partial",
    "C06_double_jump_refuted",
    "C06_race_refuted",
    "C06_stale_jump_refuted",
    "C06_leftover_jumps_refuted",
    "C06_race_skips_refuted"
   ],
   "note": "PlaylistTightProps: the failures are universal, not single runs: with t jump tokens left over the target is announced t times too often and broken off after one block each time (C06_leftover_jumps_refuted), and a jump written just before the end-of-song check always lands on the song after the target (C06_race_skips_refuted)."
  },
  {
   "property": "C07",
   "status": "partial",
   "theorems": [
    "C07_jump_returns_partial",
    "C07_jump_hangs_refuted",
    "C07_two_jumps_return_refuted"
   ],
   "note": "C07_two_jumps_return_refuted: as long as nothing playable is queued, at most two jumps ever come back, in every history."
  },
  {
   "property": "C08",
   "status": "partial",
   "theorems": [
    "C08_edits_elsewhere_partial",
    "C08_edit_before_refuted",
    "C08_next_by_number",
    "C08_removal_skips_refuted",
    "C08_insertion_repeats_refuted"
   ],
   "note": "C08_next_by_number says which song follows for any edits (the one of number p+1 when the song ends); C08_removal_skips_refuted and C08_insertion_repeats_refuted: every removal at or before the playing song skips one, every insertion there repeats the playing song."
  },
  {
   "property": "C09",
   "status": "proved",
   "theorems": [
    "C09_song_streamed_completely",
    "C09_song_prefix"
   ],
   "note": "Every pause schedule and edit schedule, no jump. The decoder follows beep's Streamer contract (n<len only when drained)."
  },
  {
   "property": "C10",
   "status": "proved",
   "theorems": [
    "C10_announcement_index",
    "C10_announcements_ordered",
    "C10_announced_once"
   ],
   "note": "Every history (pauses, jumps, edits, skips)."
  },
  {
   "property": "C11",
   "status": "partial",
   "theorems": [
    "C11_every_announcement_can_lie_refuted",
    "C11_pause_announcements_partial",
    "C11_flag_race_refuted"
   ],
   "note": "Proved for schedules in which SetPlaying does not fall between flag comparison and flag use. Refuted with the race: in every state in which a toggle is about to be announced, two SetPlaying calls around the announcement make it say the opposite of what is streamed, uncorrected until the flag is changed again (C11_every_announcement_can_lie_refuted)."
  },
  {
   "property": "C12",
   "status": "proved",
   "theorems": [
    "C12_stream_goes_on",
    "C12_loop_goes_on",
    "C12_nothing_to_play",
    "C12_with_breaks",
    "C12_all_unplayable_starves"
   ],
   "note": "Skipping is C04. C12_stream_goes_on: from every state, every run with more than 8(n+t)+16 loop steps (n songs, t unnoticed jumps) and arbitrary pausing produces samples; C12_nothing_to_play: the condition is needed. (A negative position crashes the loop: C05.)"
  },
  {
   "property": "C13",
   "status": "proved",
   "theorems": [
    "C13_fill_faithful",
    "C13_nothing_withheld",
    "C13_write_index"
   ],
   "note": "Every interleaving of the pusher, the two copy goroutines of Fill and the caller; any capacity >= 1 and any sequence of Fill sizes."
  },
  {
   "property": "C14",
   "status": "proved",
   "theorems": [
    "C14_no_deadlock",
    "C14_fill_bounded"
   ],
   "note": "Deadlock freedom and bounded completion over every interleaving."
  },
  {
   "property": "C15",
   "status": "proved",
   "theorems": [
    "C15_bounded_fifo"
   ],
   "note": "Refinement of the ring buffer to a bounded FIFO for every history and capacity >= 1."
  },
  {
   "property": "C16",
   "status": "proved",
   "theorems": [
    "C16_concurrent_fifo",
    "C16_no_tearing",
    "C16_mutual_exclusion"
   ],
   "note": "Every interleaving of one adder and one remover at lock/check/register/sleep/write/increment/broadcast granularity; memory is sequentially consistent."
  },
  {
   "property": "C17",
   "status": "partial",
   "theorems": [
    "C17_no_deadlock_partial",
    "C17_someone_moves",
    "C17_lost_wakeup_refuted",
    "C17_deadlock_refuted"
   ],
   "note": "Refuted as stated: Add broadcasts without holding cond.L, so a broadcast can fall between the remover's emptiness check and its registration; for every capacity an element can be stored with the remover asleep un-notified. With capacity 1 this is a permanent deadlock. Proved for capacity >= 2: never both waiting, the missed notification is repeated by the next operation of the other side, some goroutine can always move."
  },
  {
   "property": "C18",
   "status": "proved",
   "theorems": [
    "C18_chunks_in_order",
    "C18_combine_samples"
   ],
   "note": "Every interleaving of QueueChunk and ReadChunks; beep's D(n) modelled as n*10^9/sr."
  },
  {
   "property": "C19",
   "status": "partial",
   "theorems": [
    "C19_output_ordered_partial",
    "C19_in_order_arrival_partial",
    "C19_reordered_refuted",
    "C19_in_step_ignores_time",
    "C19_any_two_chunks_refuted"
   ],
   "note": "Proved when chunks arrive in order (each message is sent and handled in its own goroutine, so the order is not guaranteed); refuted for any two chunks of sound that arrive swapped: a player in step plays in order of arrival and goes back in time (C19_any_two_chunks_refuted)."
  },
  {
   "property": "C20",
   "status": "proved",
   "theorems": [
    "C20_consecutive",
    "C20_next_sample",
    "C20_total",
    "C20_later_input"
   ],
   "note": "Any number of Stream calls, any clock values; waiting calls complete identically when more samples arrive."
  },
  {
   "property": "C21",
   "status": "proved",
   "theorems": [
    "C21_synchronises"
   ],
   "note": "First output of a synchronising Stream call."
  },
  {
   "property": "C22",
   "status": "partial",
   "theorems": [
    "C22_first_buffer_lost_refuted",
    "C22_loss_bounded_partial"
   ],
   "note": "Refuted for every song and every buffer size: the silence test uses now < t + buffer instead of now + buffer < t, so the first buffer (100 ms) of every song is dropped. Proved: the loss is less than two buffers plus one sample period."
  },
  {
   "property": "C23",
   "status": "proved",
   "theorems": [
    "C23_playback_error",
    "C23_players_agree"
   ],
   "note": "Feed without NaN since synchronisation; slot times are the player's own (now + m periods), i.e. the sound card is assumed to consume at the nominal rate."
  },
  {
   "property": "C24",
   "status": "proved",
   "theorems": [
    "C24_chunk_messages",
    "C24_monotone",
    "C24_players_use_schedule",
    "C24_drift"
   ],
   "note": "Monotone timestamps, exact chunk starts, drift bound, contiguous indices (through the Fill model)."
  },
  {
   "property": "C25",
   "status": "partial",
   "theorems": [
    "C25_exact_partial",
    "C25_bytes",
    "C25_monotone_partial",
    "C25_full_scale_refuted",
    "C25_buffer"
   ],
   "note": "Exact float64 semantics (bit patterns); the product with the volume is an arbitrary function. Refuted at full scale: every value >= +1.0 becomes -32768 (int16(32768) wraps on amd64); below 1.0 exact and monotone."
  },
  {
   "property": "C26",
   "status": "proved",
   "theorems": [
    "C26_offset_estimate"
   ],
   "note": "All clock values without 64-bit overflow; the server's clock readings are ideal."
  },
  {
   "property": "C27",
   "status": "proved",
   "theorems": [
    "C27_round",
    "C27_old_or_mean",
    "C27_mean_between",
    "C27_no_overflow"
   ],
   "note": "Every interleaving of response handlers within a round; capacity growth of append arbitrary."
  },
  {
   "property": "C28",
   "status": "partial",
   "theorems": [
    "C28_no_panic_partial",
    "C28_initial_state_ok",
    "C28_panic_refuted"
   ],
   "note": "Refuted for every number of cycles: ResetOffsets between the unlocked length check and the averaging divides by zero. Proved when each round starts with no response in flight."
  },
  {
   "property": "C29",
   "status": "proved",
   "theorems": [
    "C29_only_bytes_matter",
    "C29_delivered_stays",
    "C29_any_segmentation",
    "C29_short_writes",
    "C29_end_to_end",
    "C29_cut_anywhere"
   ],
   "note": "zlib as an oracle with zinflate(zdeflate d)=d; reads and writes in arbitrary pieces; also: stream cut at any byte."
  },
  {
   "property": "C30",
   "status": "proved",
   "theorems": [
    "C30_round_trip",
    "C30_refused_iff_not_utf8",
    "C30_injective"
   ],
   "note": "For every field value; the only refused messages are those with a text that is not UTF-8 (sender gets an error, nothing is written). zlib oracle as in C29."
  },
  {
   "property": "C31",
   "status": "partial",
   "theorems": [
    "C31_crash_exact_partial",
    "C31_closed_exact_partial",
    "C31_crash_needs_poison_partial",
    "C31_negative_length_refuted",
    "C31_bad_payload_refuted"
   ],
   "note": "Refuted: a negative length prefix or an envelope whose payload zlib refuses panics the whole process. C31_crash_exact_partial and C31_closed_exact_partial characterise exactly which byte streams crash the process and which only cost the connection."
  },
  {
   "property": "C32",
   "status": "proved",
   "theorems": [
    "C32_concurrent_senders",
    "C32_all_delivered"
   ],
   "note": "Assumes TCPConn.Write is atomic (holds the descriptor write lock) and writes everything or fails for good."
  },
  {
   "property": "C33",
   "status": "proved",
   "theorems": [
    "C33_exactly_the_subscribers",
    "C33_written_once"
   ],
   "note": "Histories of AddConn/DelConn/Subscribe (each under the write lock) and all schedules of the broadcast goroutines."
  },
  {
   "property": "C34",
   "status": "proved",
   "theorems": [
    "C34_closed_gets_nothing",
    "C34_others_undisturbed"
   ],
   "note": ""
  },
  {
   "property": "C35",
   "status": "proved",
   "theorems": [
    "C35_result",
    "C35_returns",
    "C35_independent"
   ],
   "note": "Transition system of the sending and error-collecting goroutines; a write that blocks for ever is C64."
  },
  {
   "property": "C36",
   "status": "partial",
   "theorems": [
    "C36_prompt_handling_partial",
    "C36_one_of_those_sent_partial",
    "C36_last_volume_refuted"
   ],
   "note": "Fails in the code: each message is handled by its own goroutine, so any of the volumes can be the last one stored (proved for every list of volumes). Proved: holds when each is handled before the next arrives; never a volume that was not sent."
  },
  {
   "property": "C37",
   "status": "proved",
   "theorems": [
    "C37_messages",
    "C37_new_client_right"
   ],
   "note": "Messages sent for every channel value; end to end: an info client handling them in any order shows the newest song, volume and pauses exactly as the full history (toggles at distinct samples)."
  },
  {
   "property": "C38",
   "status": "proved",
   "theorems": [
    "C38_same_answers",
    "C38_pruning_invisible"
   ],
   "note": "For every sequential life of the server; concurrent pruning is C39."
  },
  {
   "property": "C39",
   "status": "partial",
   "theorems": [
    "C39_one_after_another_partial",
    "C39_no_overlap_partial",
    "C39_double_removal_refuted",
    "C39_crash_refuted",
    "C39_lost_pause_refuted",
    "C39_two_toggles_crash_refuted",
    "C39_songs_start_while_counting"
   ],
   "note": "False in general: two overlapping prunings remove twice (lost pauses or a panic that kills the server), in every state with a retained pause (C39_two_toggles_crash_refuted). Proved for all executions in which prunings do not overlap."
  },
  {
   "property": "C40",
   "status": "partial",
   "theorems": [
    "C40_appended",
    "C40_inserted_partial",
    "C40_negative_refuted",
    "C40_no_match"
   ],
   "note": "Holds without a position and with every non-negative one (no int64 overflow). Refuted for negative positions: position -k puts the first k matches, reversed, behind the others (C40_negative_refuted is universal)."
  },
  {
   "property": "C41",
   "status": "partial",
   "theorems": [
    "C41_other_commands_partial",
    "C41_volume_refuted"
   ],
   "note": "Holds for every command but `volume`: a rejected `volume` has already set the server volume to 0, which the next client receives."
  },
  {
   "property": "C42",
   "status": "proved",
   "theorems": [
    "C42_session",
    "C42_meaning",
    "C42_survives",
    "C42_registry",
    "C42_line_determined"
   ],
   "note": "Session semantics for every input history without Ctrl-C (see C43); C42_meaning connects lines to words by the C44 parser theorem."
  },
  {
   "property": "C43",
   "status": "partial",
   "theorems": [
    "C43_interrupt_runs_line_refuted",
    "C43_removes_refuted",
    "C43_empty_line_partial"
   ],
   "note": "Refuted: readLoop ignores readline's ErrInterrupt and executes the line typed so far (readline returns that partial line together with the error). The partial theorem covers the empty line."
  },
  {
   "property": "C44",
   "status": "proved",
   "theorems": [
    "C44_line_split",
    "C44_reading_determined"
   ],
   "note": "Proved for every line of characters below U+00C0 (all of ASCII); C44_reading_determined shows that the specification determines the result. parse_command_reads (ParserProofs) describes the result for every line."
  },
  {
   "property": "C45",
   "status": "partial",
   "theorems": [
    "C45_intact_iff_partial",
    "C45_accents_refuted",
    "C45_every_later_character_refuted"
   ],
   "note": "False of the code: ExitCharacter keeps the last byte of the UTF-8 encoding, so every character from U+00C0 on is replaced (C45_every_later_character_refuted). C45_intact_iff_partial: a plain word arrives intact iff all characters are below U+00C0."
  },
  {
   "property": "C46",
   "status": "partial",
   "theorems": [
    "C46_roundtrip_iff_partial",
    "C46_backslash_refuted"
   ],
   "note": "False of the code for words with certain backslashes, white space at an end, empty arguments or characters from U+00C0 on; C46_roundtrip_iff_partial characterises exactly the commands that survive."
  },
  {
   "property": "C47",
   "status": "partial",
   "theorems": [
    "C47_arguments",
    "C47_commands",
    "C47_other_characters",
    "C47_wide_names_refuted",
    "C47_help_offered"
   ],
   "note": "Proved for lines typed with single blanks (typed in CompleterSpec), cursor at the end, any registry with ASCII command names and any option functions; C47_help_offered says what is offered after `help` on the installed server, C47_other_characters that nothing is offered for a command typed with other characters. For a command name with other characters completion is refuted (C47_wide_names_refuted): the name is cut at a byte position that is a number of characters."
  },
  {
   "property": "C48",
   "status": "partial",
   "theorems": [
    "C48_typed_lines_partial",
    "C48_typed_names_partial",
    "C48_blanks_refuted",
    "C48_crash_exact_partial",
    "C48_help_refuted"
   ],
   "note": "C48_crash_exact_partial gives the exact condition for a crash, for every line, cursor position and registry."
  },
  {
   "property": "C49",
   "status": "proved",
   "theorems": [
    "C49_position",
    "C49_monotone",
    "C49_matches_players"
   ],
   "note": ""
  },
  {
   "property": "C50",
   "status": "proved",
   "theorems": [
    "C50_song",
    "C50_song_shown"
   ],
   "note": ""
  },
  {
   "property": "C51",
   "status": "proved",
   "theorems": [
    "C51_paused_exact",
    "C51_position_in_song_range",
    "C51_position_advances"
   ],
   "note": ""
  },
  {
   "property": "C52",
   "status": "partial",
   "theorems": [
    "C52_display_partial",
    "C52_in_order_partial",
    "C52_going_back_refuted",
    "C52_race_refuted"
   ],
   "note": "Proved for displays that do not go back in the stream (C52_display_partial), in particular for chunk information arriving in order as one continuous schedule (C52_in_order_partial). The unrestricted property is false: out-of-order chunk information makes the client drop a pause it needs again (C52_going_back_refuted), and removeOldChunks/currentSample are two critical sections (C52_race_refuted)."
  },
  {
   "property": "C53",
   "status": "proved",
   "theorems": [
    "C53_same_lists",
    "C53_same_display"
   ],
   "note": ""
  },
  {
   "property": "C54",
   "status": "partial",
   "theorems": [
    "C54_progress_partial",
    "C54_first_song_refuted"
   ],
   "note": "False for a song starting at stream index 0: state.go line 50 tests startIndex != 0 (C54_first_song_refuted, for every state). Proved for all other songs."
  },
  {
   "property": "C55",
   "status": "proved",
   "theorems": [
    "C55_lines",
    "C55_bottom_line",
    "C55_monotone"
   ],
   "note": ""
  },
  {
   "property": "C56",
   "status": "partial",
   "theorems": [
    "C56_conversion",
    "C56_arrives_partial",
    "C56_not_utf8_refuted"
   ],
   "note": "Conversion is lossless for all lyrics and metadata and survives the wire for UTF-8 texts. Refuted otherwise: a song with a non-UTF-8 file name or tag is never announced."
  },
  {
   "property": "C57",
   "status": "proved",
   "theorems": [
    "C57_duration",
    "C57_shape"
   ],
   "note": ""
  },
  {
   "property": "C58",
   "status": "proved",
   "theorems": [
    "C58_filter",
    "C58_cutoff_total"
   ],
   "note": "Model of GetLogger's closure: levels, cutoff table, placeholder replacement in the order of the code; the date is an arbitrary text."
  },
  {
   "property": "C59",
   "status": "partial",
   "theorems": [
    "C59_package_flags_ignored_refuted",
    "C59_trace_not_shown_refuted",
    "C59_default_flag_partial"
   ],
   "note": "Refuted for every flag assignment: HandleLoggingFlags stores the level under \"comm-logging\" (and so on) while the loggers look up \"comm\", so the package flags have no effect. Proved part: --logging sets the level of every logger."
  },
  {
   "property": "C60",
   "status": "proved",
   "theorems": [
    "C60_login",
    "C60_sessions",
    "C60_closed_accounts"
   ],
   "note": "Decision functions of the password and key handlers plus the session context: the commands a session runs are those of the user that authenticated. x/crypto checks the signature of the offered key (trusted)."
  },
  {
   "property": "C61",
   "status": "partial",
   "theorems": [
    "C61_ls_partial",
    "C61_queue_partial",
    "C61_dot_slash_refuted",
    "C61_up_refuted",
    "C61_hidden_refuted"
   ],
   "note": "Proved for plainly spelled music directories (absolute, relative, starting with ..) and sub directories or patterns that do not go up, without pattern characters in the music directory; refuted for ./audio, for ls .. and for hidden files when the music directory is \".\". filepath.Clean, Walk, Match and Glob are modelled."
  },
  {
   "property": "C62",
   "status": "proved",
   "theorems": [
    "C62_songs"
   ],
   "note": "Independent inductive specification, both directions."
  },
  {
   "property": "C63",
   "status": "partial",
   "theorems": [
    "C63_current_song_partial",
    "C63_current_song_refuted"
   ],
   "note": "CurrentSong names the last announced song whenever a song streams. Refuted for 'empty when none is': it stays set after the last song ended."
  },
  {
   "property": "C64",
   "status": "partial",
   "theorems": [
    "C64_same_broadcast_partial",
    "C64_all_served_partial",
    "C64_never_returns_refuted",
    "C64_service_frozen_refuted"
   ],
   "note": "Fails in the code: sendWire sets no deadline, SendMessage waits for all writes while holding the read lock; with a waiting writer no new reader gets in. Proved: within the broadcast the others are served."
  },
  {
   "property": "C65",
   "status": "partial",
   "theorems": [
    "C65_before_stream_refuted",
    "C65_before_stream_partial"
   ],
   "note": "The code violates it for every negative position when the last announced toggle is a pause: uint64(sample) in handlePause (state.go line 78). Proved: right at sample 0, and before it whenever the last announced toggle is a resume or there is none."
  },
  {
   "property": "C66",
   "status": "partial",
   "theorems": [
    "C66_same_index_refuted",
    "C66_agreeing_partial"
   ],
   "note": "The code violates it: each message is handled in its own goroutine and equal indices have no order. Proved: whenever the announcements with the highest index below the sample agree, the display is right for every handling order."
  },
  {
   "property": "C67",
   "status": "partial",
   "theorems": [
    "C67_recorded_in_order_refuted",
    "C67_recorded_once",
    "C67_recorded_in_order_partial",
    "C67_any_two_toggles_refuted",
    "C67_pause_forgotten_refuted"
   ],
   "note": "Each toggle is recorded exactly once, but not in order: in every state any two toggles can be recorded swapped, after which pruning can forget the pause. Proved: complete and in order if each toggle is appended before the next is made; then the retained pauses answer like the toggles made."
  },
  {
   "property": "C68",
   "status": "partial",
   "theorems": [
    "C68_newest_song",
    "C68_later_songs_partial",
    "C68_pauses_partial",
    "C68_pauses_refuted",
    "C68_any_toggle_missed_refuted"
   ],
   "note": "Newest song: proved for every interleaving. Later songs: if announcements do not overlap. Pauses: proved for toggles made after the subscription or retained when the pauses are sent; in every state a toggle broadcast before and recorded after the snapshot is lost for good (C68_any_toggle_missed_refuted)."
  },
  {
   "property": "C69",
   "status": "partial",
   "theorems": [
    "C69_current_song_refuted",
    "C69_newest_started_partial"
   ],
   "note": "False while the current song is playing out: only the newest announced song is sent. Proved: once the newest announced song has started, every new client shows it."
  },
  {
   "property": "C70",
   "status": "partial",
   "theorems": [
    "C70_overtaken_refuted",
    "C70_stale_newest_refuted",
    "C70_one_after_the_other_partial",
    "C70_stored_once_partial",
    "C70_any_two_songs_refuted",
    "C70_any_slow_song_refuted"
   ],
   "note": "False when announcements overlap: announcement goroutines share newestSong without synchronisation; from every state, any two songs can be announced so that the first reaches nobody, or stays 'newest'. Proved: each started song is stored exactly once; songs announced one after the other reach a subscribed client once each, in order."
  },
  {
   "property": "C71",
   "status": "proved",
   "theorems": [
    "C71_labels"
   ],
   "note": ""
  },
  {
   "property": "C72",
   "status": "proved",
   "theorems": [
    "C72_effects",
    "C72_crash_exact",
    "C72_replies"
   ],
   "note": ""
  },
  {
   "property": "C73",
   "status": "proved",
   "theorems": [
    "C73_help",
    "C73_usage"
   ],
   "note": ""
  },
  {
   "property": "C74",
   "status": "proved",
   "theorems": [
    "C74_level_names",
    "C74_off_is_silent",
    "C74_ascii"
   ],
   "note": "unicode.ToLower above ASCII is an arbitrary function; C74_ascii spells out what is accepted for ASCII input."
  },
  {
   "property": "C75",
   "status": "proved",
   "theorems": [
    "C75_host_key"
   ],
   "note": "Model of getOptions."
  },
  {
   "property": "C76",
   "status": "partial",
   "theorems": [
    "C76_ls_complete_partial",
    "C76_ls_once",
    "C76_unreadable_refuted"
   ],
   "note": "Complete if everything can be read; refuted otherwise: the first entry that cannot be read (permission, or deleted meanwhile) silently ends the listing."
  },
  {
   "property": "C77",
   "status": "partial",
   "theorems": [
    "C77_offered_is_queued_partial",
    "C77_brackets_refuted"
   ],
   "note": "Proved for names without the characters * ? [ and backslash; refuted for every name with a bracketed character, which is offered but taken as a pattern."
  },
  {
   "property": "C78",
   "status": "proved",
   "theorems": [
    "C78_ls_completion",
    "C78_later_arguments",
    "C78_ls_offered"
   ],
   "note": "Both directions, for readable trees in plainly spelled directories."
  },
  {
   "property": "C79",
   "status": "proved",
   "theorems": [
    "C79_beside_the_song",
    "C79_no_sharing"
   ],
   "note": "For every name found by ls, completion or queue."
  },
  {
   "property": "C80",
   "status": "proved",
   "theorems": [
    "C80_well_formed"
   ],
   "note": "Decoder invariant over every byte stream; zlib is only assumed to produce bytes."
  },
  {
   "property": "C81",
   "status": "proved",
   "theorems": [
    "C81_accuracy",
    "C81_volume_one",
    "C81_volume_zero",
    "C81_louder",
    "C81_no_overflow"
   ],
   "note": "float64 multiplication modelled exactly (GoFloat: round to nearest even on bit patterns, with proofs of monotonicity, exactness and error bound)."
  },
  {
   "property": "C82",
   "status": "proved",
   "theorems": [
    "C82_volume_confirmed",
    "C82_volume_displayed"
   ],
   "note": "ParseFloat is modelled as correctly rounded for plain decimals (other input forms arbitrary), %.3f and %06.2f as the exact value rounded half-even."
  },
  {
   "property": "C83",
   "status": "proved",
   "theorems": [
    "C83_bar_proportional",
    "C83_bar_ends",
    "C83_bar_monotone"
   ],
   "note": "tcell's SetContent is modelled as storing one rune per cell; the float64 quotient and product are exact models (GoFloat)."
  },
  {
   "property": "C84",
   "status": "proved",
   "theorems": [
    "C84_info_frame",
    "C84_lyrics_frame"
   ],
   "note": "Proved for at least 10 columns (the label must fit in the frame)."
  },
  {
   "property": "C85",
   "status": "partial",
   "theorems": [
    "C85_first_line_bytes_partial",
    "C85_second_line_bytes_partial",
    "C85_first_line_partial",
    "C85_second_line_partial",
    "C85_gap_refuted"
   ],
   "note": "Defect: drawString uses the byte offset as the column, so after a non-ASCII character the text is torn apart. Proved: every character is in the column of its first byte, hence ASCII texts are shown as they are; refuted for every text with a non-ASCII character followed by a non-blank."
  },
  {
   "property": "C86",
   "status": "partial",
   "theorems": [
    "C86_volume_partial",
    "C86_time_partial",
    "C86_volume_refuted",
    "C86_time_refuted",
    "C86_typed_volume_partial"
   ],
   "note": "Defect: the title is drawn over the volume and the artist over the time if they are too long. Proved when the texts leave enough room; refuted for longer titles."
  },
  {
   "property": "C87",
   "status": "proved",
   "theorems": [
    "C87_lyrics_lines",
    "C87_nothing_above"
   ],
   "note": "Characters are in the column of their first byte (see C85)."
  },
  {
   "property": "C88",
   "status": "proved",
   "theorems": [
    "C88_only_the_stream",
    "C88_in_order_gapless",
    "C88_bytes"
   ],
   "note": "Composition of PlaylistModel, ChanModel, ScheduleModel, WireModel, QueueModel, PlayerModel, PcmModel. The clock reading at which Stream decides is arbitrary (C20-C22 say how output relates to it)."
  },
  {
   "property": "C89",
   "status": "proved",
   "theorems": [
    "C89_no_control",
    "C89_every_message_handled"
   ],
   "note": "Messages handled one at a time (each handler runs as a whole); before start-up is finished see C91."
  },
  {
   "property": "C90",
   "status": "partial",
   "theorems": [
    "C90_streams_partial",
    "C90_only_these",
    "C90_silent_refuted",
    "C90_bad_rate_refuted"
   ],
   "note": "Flag values that make the server panic at start or run without ever streaming are not rejected; the exact set of working values (as long as the chunk duration does not overflow) is proved."
  },
  {
   "property": "C91",
   "status": "partial",
   "theorems": [
    "C91_startup_crash_exact_partial",
    "C91_start_order",
    "C91_early_subscriber_refuted"
   ],
   "note": "The handler of subscriptions calls NewClientHandler without a nil check while it is still unset: the exact window is proved. C91_start_order: the start goes through its five steps in order whatever clients send."
  },
  {
   "property": "C92",
   "status": "partial",
   "theorems": [
    "C92_served_partial",
    "C92_one_error_refuted"
   ],
   "note": "The accept loop ends at the first error, temporary or not."
  },
  {
   "property": "C93",
   "status": "partial",
   "theorems": [
    "C93_exit_partial",
    "C93_info_client_refuted"
   ],
   "note": "Holds for players; the info client drops the exit error and dereferences a nil sender."
  },
  {
   "property": "C94",
   "status": "partial",
   "theorems": [
    "C94_round_partial",
    "C94_no_effect_refuted",
    "C94_command_line_refuted"
   ],
   "note": "The flags exist only in the server, which sends no time requests; clients use the constants."
  },
  {
   "property": "C95",
   "status": "partial",
   "theorems": [
    "C95_volume_partial",
    "C95_overwritten_refuted",
    "C95_chunks"
   ],
   "note": "Init resets the volume to 0.1, losing a volume received before."
  },
  {
   "property": "C96",
   "status": "partial",
   "theorems": [
    "C96_same_rate_partial",
    "C96_same_rate_whole_partial",
    "C96_other_rate_refuted",
    "C96_recorded_samples_partial",
    "C96_whole_recording_partial"
   ],
   "note": "The sample rate of the file is ignored; refuted for every other rate. What is streamed are the recorded samples one by one, in order, from the first one, whatever the rate (C96_recorded_samples_partial, C96_whole_recording_partial)."
  },
  {
   "property": "C97",
   "status": "partial",
   "theorems": [
    "C97_all_errors",
    "C97_err_returns",
    "C97_text",
    "C97_broadcast_count_refuted"
   ],
   "note": "The error text of a broadcast contains an unformatted %d (broadcast_count_refuted); all else proved."
  },
  {
   "property": "C98",
   "status": "proved",
   "theorems": [
    "C98_in_order",
    "C98_expansion_exists",
    "C98_exactly",
    "C98_queue"
   ],
   "note": "Patterns without . or .. elements, music directory without pattern characters and without links to directories; filepath.Match on characters (Go matches bytes after a star, which differs for negated classes with non-ASCII characters)."
  },
  {
   "property": "C99",
   "status": "proved",
   "theorems": [
    "C99_never_wrong",
    "C99_synchronised",
    "C99_server_clock",
    "C99_heard_together"
   ],
   "note": "Proved through the models of server, client handler, timing and player. Clocks are int64 nanoseconds with drift bounded by rho relative to a constant distance theta; values up to 2^60 ns (36 years). The crash of C28 is excluded (a run that ends in it has no state)."
  },
  {
   "property": "C100",
   "status": "partial",
   "theorems": [
    "C100_announcements_partial",
    "C100_sample",
    "C100_display_partial",
    "C100_last_song",
    "C100_flag_race_refuted"
   ],
   "note": "Proved end to end (C100_display_partial: playlist run, schedule, client run, display) except under the defects already recorded: SetPlaying inside the announcement window (C11), time and length of a song at stream index 0 (C54), chunk information out of order or within a display's first steps (C52)."
  },
  {
   "property": "C101",
   "status": "proved",
   "theorems": [
    "C101_unambiguous",
    "C101_written",
    "C101_refused"
   ],
   "note": "strconv.Atoi is modelled (GoFmt.atoi) and proved equivalent to the independent definition NumberSpec.reads, which the statements of C40 and C72 now use as well."
  },
  {
   "property": "C102",
   "status": "proved",
   "theorems": [
    "C102_silent_while_paused",
    "C102_no_silence_while_playing",
    "C102_resumed_where_stopped",
    "C102_players_silent"
   ],
   "note": "Pushing a block is one step of the model: the at most 512 samples of the block being pushed when pause is called still go out and count as streamed before the pause. The resume theorem is for runs without jumps (jumps: C06)."
  },
  {
   "property": "C103",
   "status": "proved",
   "theorems": [
    "C103_reads_standard",
    "C103_writes_standard",
    "C103_newer_sender"
   ],
   "note": "The specification (ProtoSpec.v) is a relational description of the protobuf wire format written independently of the encoder and decoder of the model. zlib is a parameter (inverse on what it wrote, bytes to bytes). Message types registered by other packages are excluded (they are read and ignored)."
  },
  {
   "property": "C104",
   "status": "proved",
   "theorems": [
    "C104_number",
    "C104_word",
    "C104_refused",
    "C104_unambiguous",
    "C104_plain",
    "C104_extends_C82"
   ],
   "note": "strconv.ParseFloat is modelled with its scanner, underscore check and exponent limit; that its conversion is correctly rounded is an assumption of the model (documented there). For numbers longer than 2000 characters the exponent limit of the library (it stops counting at 10000) could matter; they are excluded. A refused text still assigns 0 to the stored volume: that is C41."
  },
  {
   "property": "C105",
   "status": "proved",
   "theorems": [
    "C105_read",
    "C105_all_or_nothing",
    "C105_unambiguous",
    "C105_captions",
    "C105_announced"
   ],
   "note": "encoding/json written out (parser and storing by case-folded names); C105_announced composes with the wire format. The tags (title, artist, album) come from other readers, see C56."
  },
  {
   "property": "C106",
   "status": "proved",
   "theorems": [
    "C106_read",
    "C106_unambiguous",
    "C106_refused",
    "C106_logins"
   ],
   "note": "encoding/json and encoding/base64 written out; a null inside an array of key bytes counts as 0 (Go keeps a byte of an earlier pubKey member of the same user there). Composed with the authentication model (C60)."
  },
  {
   "property": "C107",
   "status": "partial",
   "theorems": [
    "C107_server_starts",
    "C107_player_starts",
    "C107_infoer_starts",
    "C107_refused",
    "C107_asked",
    "C107_two_forms",
    "C107_defaults",
    "C107_stray_refuted",
    "C107_readme_refuted",
    "C107_completing",
    "C107_no_panic",
    "C107_address_partial",
    "C107_ipv6_refuted"
   ],
   "note": "C107_{server,player,infoer}_starts: iff; C107_refused: iff; help, version, completions, no panic; defaults. Refuted: what follows a non-option argument is ignored without a word (C107_stray_refuted); README's --host-key-file does not exist and its port is wrong (C107_readme_refuted); an IPv6 host without brackets makes no address (C107_ipv6_refuted), all other hosts do (C107_address_partial). Not modelled: what completion prints; environment and file sources of flags (unused)."
  },
  {
   "property": "C108",
   "status": "partial",
   "theorems": [
    "C108_integer",
    "C108_natural",
    "C108_plain_number_partial",
    "C108_octal_refuted",
    "C108_number_round_trip",
    "C108_durations_read",
    "C108_durations_only",
    "C108_duration_round_trip",
    "C108_needs_unit"
   ],
   "note": "Specifications proved as iff. Refuted only: decimal digits with a leading zero are read in base eight (C108_octal_refuted), so --port 010 is port 8; without one they are read as written (C108_plain_number_partial)."
  },
  {
   "property": "C109",
   "status": "proved",
   "theorems": [
    "C109_no_panic",
    "C109_in_order",
    "C109_exactly_once",
    "C109_progress",
    "C109_finishes",
    "C109_capacity"
   ],
   "note": "Small-step model of QueueChunk goroutines and ReadChunks with Go's RWMutex (a waiting writer keeps readers out); the slice is read and written in separate steps, so a missing lock would lose updates. The unsynchronised look at the length (streamer.go:83) is modelled as an atomic read. The order in which messages are queued is not the order in which they arrive; C19 is about that."
  },
  {
   "property": "C110",
   "status": "partial",
   "theorems": [
    "C110_one_after_the_other_partial",
    "C110_nothing_lost",
    "C110_own_order",
    "C110_crash_only",
    "C110_progress",
    "C110_returns",
    "C110_queue_together_refuted",
    "C110_jump_refuted"
   ],
   "note": "Linearisability of the song list, conservation, order, progress and termination are proved for all interleavings. Refuted by the code: the songs of one queue command can be separated by another session's, since each is added under its own lock; a jump between nextSong's read and write of the position (SetPos takes no lock) is overwritten, so what is fetched next is not the song jumped to."
  },
  {
   "property": "C111",
   "status": "partial",
   "theorems": [
    "C111_passwords_partial",
    "C111_keys_partial",
    "C111_no_false_alarm",
    "C111_sessions",
    "C111_readable_partial",
    "C111_forged_refuted",
    "C111_names_refuted",
    "C111_signature_refuted",
    "C111_address_refuted"
   ],
   "note": "Proved for connections that name one user: counts of password lines, a line for every foreign key, no false alarms, session lines, and that the log text determines its entries when messages have no line breaks. Refuted by the code: a user name with a line break forges entries; all attempts of a connection are logged under the first name tried; a key offered without its private key is refused without a line; an unreadable key in the users file gives a line without the address."
  },
  {
   "property": "C112",
   "status": "proved",
   "theorems": [
    "C112_typed_volume_is_heard",
    "C112_one"
   ],
   "note": "Composes C104 (text to nearest float), C30 (wire), C95 (player start; the initialisation must have run before the volume is handled), C25/C81 (bytes). Volume messages are assumed to be handled in the order of arrival (C36 shows what happens otherwise)."
  },
  {
   "property": "C113",
   "status": "partial",
   "theorems": [
    "C113_right_size",
    "C113_noticed",
    "C113_how_it_ends_partial",
    "C113_ctrl_c",
    "C113_ctrl_c_noticed",
    "C113_not_restored_refuted"
   ],
   "note": "Partial: the terminal is given back exactly when the client ends with Ctrl-C; when the connection is lost (os.Exit(1) without Fini, comm/conn_handler.go:80) or an unexpected event arrives (panic, drawing.go:26), it is not (C113_not_restored_refuted)."
  },
  {
   "property": "C114",
   "status": "proved",
   "theorems": [
    "C114_tokens",
    "C114_grammar",
    "C114_parser",
    "C114_command"
   ],
   "note": "proved about the tables word by word and the generated rule functions; the antlr runtime (reading the table, longest match, Sync, adaptive prediction) is modelled after its published algorithm, what its error recovery would do is not needed as no line is an error"
  },
  {
   "property": "C115",
   "status": "proved",
   "theorems": [
    "C115_descriptor",
    "C115_names",
    "C115_marshal",
    "C115_unmarshal",
    "C115_envelope",
    "C115_frames",
    "C115_standard"
   ],
   "note": "DEFLATE, gzip, reading of descriptors and the choice of coders by descriptor and struct tags are modelled after RFC 1951/1952 and protobuf-go 1.23; the descriptor is transcribed byte by byte"
  },
  {
   "property": "C116",
   "status": "partial",
   "theorems": [
    "C116_connections",
    "C116_subscriptions_partial",
    "C116_subscriptions_refuted",
    "C116_chunks",
    "C116_client_pauses",
    "C116_server_pauses",
    "C116_songs_kept_partial",
    "C116_songs_refuted"
   ],
   "note": "Connections, chunks and pauses are bounded as stated (pauses: for toggles that alternate and, at the client, arrive in order). Refuted for subscriptions (never deleted, one entry per client that ever subscribed, duplicates kept) and for the info client's songs (never deleted)."
  },
  {
   "property": "C117",
   "status": "partial",
   "theorems": [
    "C117_standard_streams",
    "C117_headers",
    "C117_messages_arrive",
    "C117_any_compressor",
    "C117_cut_partial",
    "C117_checksum_refuted",
    "C117_cut_refuted"
   ],
   "note": "Proved: the decompressor (compress/zlib + compress/flate as used) reads every RFC 1950 stream of every data without error, so that the wire theorems hold with any standard compressor on the sending side; a cut stream yields a prefix of the data. Refuted part: package_util.go:75-77 drops the errors of zlib.NewReader and ReadAll, so a wrong or missing check sum goes unnoticed, and for every song announcement there is a cut zlib stream that is handled as an announcement without lyrics and metadata."
  },
  {
   "property": "C118",
   "status": "partial",
   "theorems": [
    "C118_expansion",
    "C118_complete_partial",
    "C118_reserve_refuted",
    "C118_expansion_reached"
   ],
   "note": "The expansion bound holds for every body and is tight; frames that have arrived cost at most 1033 times their size. Refuted for announced sizes: readBytes makes a buffer of the announced size (up to 2^48) before any of it has arrived, so eight bytes suffice (C118_reserve_refuted). Counted are the buffers made by this code, not those inside the libraries."
  },
  {
   "property": "C119",
   "status": "partial",
   "theorems": [
    "C119_stays_or_leaves",
    "C119_says_why",
    "C119_running_says",
    "C119_shell_partial",
    "C119_shell_says",
    "C119_no_shell_refuted"
   ],
   "note": "Staying, leaving and the messages are proved for every configuration, with the complete log of the start (C119_running_says) and of the shell (C119_shell_says). The shell is there iff its address is free and the host key file, if it exists, holds a key (C119_shell_partial); otherwise the server runs on without any control and nothing but a log line tells (C119_no_shell_refuted)."
  },
  {
   "property": "C120",
   "status": "partial",
   "theorems": [
    "C120_info_partial",
    "C120_rate_refuted",
    "C120_history_refuted",
    "C120_player_partial",
    "C120_player_refuted"
   ],
   "note": "Proved for every sample rate but 0 and all but seven history sizes (info client) and for sample rates from 10 on (player); the excluded settings are accepted and crash the client or keep it silent (C120_rate_refuted, C120_history_refuted, C120_player_refuted). The sound system (oto) is taken to accept the rate."
  },
  {
   "property": "C121",
   "status": "partial",
   "theorems": [
    "C121_plain_answers_partial",
    "C121_typed_text_becomes_control_refuted",
    "C121_names_are_printed_raw_refuted"
   ],
   "note": "False of the code. The parser keeps only the last UTF-8 byte of a character, so for every character from U+00C0 on whose last byte is below 0xA0 the answer contains a C1 control character (typing U+00DB followed by 2J sends CSI 2 J back): C121_typed_text_becomes_control_refuted, for all states and registries. Control characters in names of songs and files are printed raw: C121_names_are_printed_raw_refuted. Proved for all sessions in which the typed characters are harmless and names, error and help texts are plain: C121_plain_answers_partial. Missing for the full claim: the code would have to deliver characters intact and quote names."
  },
  {
   "property": "C122",
   "status": "partial",
   "theorems": [
    "C122_while_collected_partial",
    "C122_only_the_collector_closes",
    "C122_so_many_songs_refuted",
    "C122_unplayable_song_refuted"
   ],
   "note": "Partial: proved (as refinement of the loop of C04-C12, complete announcements, no refused client) while the garbage collector keeps up. Refuted: nothing opened is ever closed by the program (no Close for songs, lyrics or tags), so without the collector only limit-base files are opened in a lifetime; one file that cannot be decoded makes the loop use up all of them without a single sample, and the next Accept then fails, after which no client is ever served (conn_handler.go 52-55 leaves the loop)."
  },
  {
   "property": "C123",
   "status": "partial",
   "theorems": [
    "C123_plain_value_partial",
    "C123_results_stay_partial",
    "C123_same_panics_partial",
    "C123_caller_writes_refuted",
    "C123_caller_sees_refuted",
    "C123_caller_appends_refuted"
   ],
   "note": "Proved for a playlist made from an empty slice (what the server does) or from a slice its caller no longer uses: refinement of the heap-level methods to the plain list of C01-C03 and non-interference of all holders. Refuted, for every non-empty slice, if the caller of NewPlaylist goes on using it: its writes change the playlist, RemoveSong changes its slice, and appends of both overwrite each other."
  },
  {
   "property": "C124",
   "status": "partial",
   "theorems": [
    "C124_runs_until_cancelled",
    "C124_at_most_one_more_song",
    "C124_returns_soon_partial",
    "C124_paused_refuted"
   ],
   "note": "Proved: it returns only when cancelled (and without cancelling is exactly the loop of C04-C12, in both directions), and starts at most one more song. Partial: returning is proved with a bound in steps while nobody pauses; cancelled while paused it never returns (universal refutation), and a loop waiting for room in the channels waits for Fill (C14)."
  },
  {
   "property": "C125",
   "status": "partial",
   "theorems": [
    "C125_between_partial",
    "C125_startup_ends",
    "C125_any_time_partial",
    "C125_other_command_refuted",
    "C125_registered_unknown_refuted",
    "C125_sessions_after",
    "C125_insertion_sorts"
   ],
   "note": "Proved for lookups and listings that no registration overlaps (C125_between_partial, for every sorting procedure), that registrations finish whatever sessions do (C125_startup_ends), that afterwards the table is the one the session theorems use (C125_sessions_after), and that at any time what is found carries the asked name and a registered command's functions (C125_any_time_partial). Violated during a registration: the session can get the new command's functions under the old command's name (C125_other_command_refuted; with this program `volume` can run `pause`) or be told that a registered command is unknown (C125_registered_unknown_refuted; `queue`). Not modelled: words of a string or of the slice header read apart."
  },
  {
   "property": "C126",
   "status": "partial",
   "theorems": [
    "C126_other_moments_partial",
    "C126_any_moment_partial",
    "C126_target_forgotten_refuted",
    "C126_song_starts_again_refuted",
    "C126_lost_at_unplayable_refuted"
   ],
   "note": "Refuted: the position is read and written back without a lock, so a jump made in between returns and is forgotten; any two targets have the same effect (C126_target_forgotten_refuted), the song chosen is broken off after one block and started again (C126_song_starts_again_refuted). Proved: at all other moments the playlist is exactly that of PlaylistModel (both directions), and a jump at a bad moment amounts to a jump to the place the loop was about to write."
  },
  {
   "property": "C127",
   "status": "partial",
   "theorems": [
    "C127_reads_partial",
    "C127_whole_partial",
    "C127_mixture_refuted"
   ],
   "note": "Partial: a question during which the loop does not store the name is answered with the song current at its beginning, and both words always stem from names of songs that were current. Refuted as such: each time a song begins the words can be of two different names (universal over reachable states), and before the first song that is a nil dereference, which ends the server."
  },
  {
   "property": "C128",
   "status": "partial",
   "theorems": [
    "C128_one_after_another_partial",
    "C128_only_typed_partial",
    "C128_two_volumes_refuted",
    "C128_late_client_refuted",
    "C128_typo_silences_refuted",
    "C128_nobody_waits"
   ],
   "note": "The property is false of the code. C128_one_after_another_partial: from every reachable quiet state, if commands and subscriptions then come one after the other and none is refused, replies, server volume and what every client was sent last are the volume typed last (a client to which a write failed excepted). C128_only_typed_partial holds for every schedule: no volume is ever sent, told or stored that was not typed (0 for a refused text). Refuted: C128_two_volumes_refuted (from every reachable state with two idle sessions and two subscribed clients), C128_late_client_refuted, C128_typo_silences_refuted (from every state with the sessions idle). The read lock and the write lock of Subscribe are modelled; a write to one client is one step (see C17, C118 for the framing)."
  },
  {
   "property": "C129",
   "status": "partial",
   "theorems": [
    "C129_linearizable",
    "C129_no_tearing",
    "C129_no_deadlock_partial",
    "C129_len_deadlock_refuted",
    "C129_left_behind_refuted"
   ],
   "note": "Partial: linearizability and freedom from torn elements hold for any number of goroutines and every size >= 1; freedom from deadlock is proved without Len and for at least two elements (_partial) and refuted with Len for every size (dead: no call ever returns again in any continuation) and, for the lost wake-up, by a schedule that leaves a Remove asleep beside one element (_left_behind_refuted). Len is called only by tests in this repository. The RWMutex model keeps new readers out once a writer has announced itself, as Go's does; hand-over of waiting readers on Unlock is not modelled (any waiter may be next), which allows more schedules."
  },
  {
   "property": "C130",
   "status": "proved",
   "theorems": [
    "C130_songs_only",
    "C130_whole_songs",
    "C130_programme",
    "C130_goes_on",
    "C130_heard_in_order",
    "C130_only_queued",
    "C130_removed_not_played"
   ],
   "note": "Songs_only holds for every history incl. jumps, edits and crashes; whole_songs without jumps; programme without jumps and edits; goes_on is the reachability half; heard_in_order composes with the connection and player model of C88. A file is assumed to decode to the same samples each time (decode is a function)."
  },
  {
   "property": "C131",
   "status": "proved",
   "theorems": [
    "C131_turn_comes",
    "C131_loop_runs_on"
   ],
   "note": "Liveness stated for every run of n or more loop steps (the loop is deterministic when nobody interferes); that Fill keeps draining the channels, so that the loop is never blocked in a push, is C14."
  },
  {
   "property": "C132",
   "status": "proved",
   "theorems": [
    "C132_stream",
    "C132_every_stream",
    "C132_programme",
    "C132_pause_within",
    "C132_resume_within",
    "C132_jump_within",
    "C132_pause_in_chunks",
    "C132_goes_on"
   ],
   "note": "The stream with its channels at the granularity of single channel operations (LatencyModel = PlaylistModel's loop x ChanModel), both directions of the correspondence, the bounds for pause (also in chunks), resume (wherever inside a song the loop is) and jump (one jump, no edits between it and the target: the guard of C06), deadlock freedom. C132_exact shows the bound is attained."
  },
  {
   "property": "C133",
   "status": "proved",
   "theorems": [
    "C133_pause_by_the_clock",
    "C133_resume_by_the_clock"
   ],
   "note": "Proved for every schedule: the bound is the stream delay plus the time of one channel and one block (two after a resume: the block of silence being pushed), plus 1 ns. The times are those written into the messages, on the server's clock (players play each sample at that time of their synchronised clocks: C19-C24, C99). The resume theorem holds wherever inside a song the loop is, for runs without jumps and until the song ends."
  },
  {
   "property": "C134",
   "status": "partial",
   "theorems": [
    "C134_lead",
    "C134_in_time_partial",
    "C134_lost_ticks_refuted",
    "C134_short_delay_refuted"
   ],
   "note": "Exact window of the lead (C134_lead): at most the stream delay less one chunk, less one chunk for every tick ever lost, and with an up-to-date ticker more than that less two chunks. In time if the delay is three chunks or more and no tick has been lost (C134_in_time_partial). Refuted: a lost tick (Fill outlasting a tick's turn, e.g. a hanging file system or a suspended process) is never made up for, and once they add up every later chunk is late (C134_lost_ticks_refuted); a stream delay of a chunk or less is accepted and makes every chunk late (C134_short_delay_refuted)."
  }
 ]
}