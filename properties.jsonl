{"id": "C01", "title": "Inserting and appending songs", "statement": "InsertSong(song, i) puts the song at index i clipped to [0, len], AddSong puts it at the end; in both cases every other song keeps its relative order, nothing is lost or overwritten, and the call never panics.", "quantifier": "every playlist content, every song and every int index (negative and past the end included)", "why_tests_cant": "tests use a handful of 8-16 element lists and three index classes; the slice shifting must be right for every length and index", "anchors": ["playback/playlist.go:Playlist.InsertSong", "playback/playlist.go:Playlist.AddSong", "playback/playlist.go:Playlist.Songs"]}
{"id": "C02", "title": "Removing a song", "statement": "RemoveSong(i) removes exactly one song, the one at i clipped to the bounds of the playlist, returns it and leaves the rest in order; on an empty playlist it returns \"\" and changes nothing; it never panics.", "quantifier": "every playlist content and every int index, in particular i == len", "why_tests_cant": "tests try index 22 on 13 songs but not the boundary i == len; only a statement over all indices covers it", "anchors": ["playback/playlist.go:Playlist.RemoveSong"]}
{"id": "C03", "title": "Playlist histories refine a plain list", "statement": "After any sequence of AddSong/InsertSong/RemoveSong calls, Songs() returns exactly what the same sequence of edits on an ordinary list gives, and every RemoveSong returned what the list removal returned.", "quantifier": "every finite history of edits with arbitrary arguments that avoids the i == len removal", "why_tests_cant": "a property of all histories; tests run one fixed history", "anchors": ["playback/playlist.go:Playlist.AddSong", "playback/playlist.go:Playlist.InsertSong", "playback/playlist.go:Playlist.RemoveSong", "playback/playlist.go:Playlist.Songs"]}
{"id": "C04", "title": "Playback order wraps around", "statement": "With a non-empty unchanged playlist of n songs and a starting position p >= 0, the songs played one after another are songs[p mod n], songs[(p+1) mod n], ... for ever; Pos() is always a valid index and picking the next song never panics.", "quantifier": "every playlist, every starting position and every number of finished songs", "why_tests_cant": "the claim is about unbounded runs and every jump target; the tests stop at 64 songs and non-negative positions", "anchors": ["playback/playlist.go:Playlist.nextSong", "playback/playlist.go:Playlist.Pos", "playback/playlist.go:Playlist.shouldBreakStreamerPushLoop"]}
{"id": "C05", "title": "Jump targets are accepted safely", "statement": "`jump p` (SetPos) with any integer p leaves the server able to go on playing: the next song is a song of the playlist.", "quantifier": "every int p typed by a user and every playlist", "why_tests_cant": "tests jump only to 0..15; negative targets reach a modulo with a negative operand", "anchors": ["playback/playlist.go:Playlist.SetPos", "playback/playlist.go:Playlist.nextSong", "schedule/server_state_commands.go:jumpCommand"]}
{"id": "C06", "title": "A jump interrupts once and lands on the target", "statement": "After SetPos(p) while a song streams, the current song is interrupted after at most one buffer of 512 samples and the next song streamed is songs[p mod n], which then plays to its end.", "quantifier": "every playlist, every p, every number and timing of jumps, including jumps issued while nothing streams", "why_tests_cant": "the interruption travels through a channel of capacity 2, and position and token are written separately, so the outcome depends on the schedule", "anchors": ["playback/playlist.go:Playlist.SetPos", "playback/playlist.go:Playlist.shouldBreakStreamerPushLoop", "playback/playlist.go:Playlist.pushStreamer"]}
{"id": "C07", "title": "Jump never hangs the control session", "statement": "The jump command always returns.", "quantifier": "every number of jumps and every streaming state (nothing queued, song playing, paused)", "why_tests_cant": "blocking depends on how many unconsumed jump tokens a history leaves behind", "anchors": ["playback/playlist.go:Playlist.SetPos", "playback/playlist.go:NewPlaylist"]}
{"id": "C08", "title": "Editing elsewhere does not change what plays next", "statement": "Removing or inserting a song that is not the next one to play does not change which song follows the current one.", "quantifier": "every playlist, position and edit position", "why_tests_cant": "a relation between two runs (with and without the edit), not a single run", "anchors": ["playback/playlist.go:Playlist.RemoveSong", "playback/playlist.go:Playlist.InsertSong", "playback/playlist.go:Playlist.nextSong"]}
{"id": "C09", "title": "A song is streamed completely, once, in order", "statement": "Whatever the pause/resume schedule, if no jump interrupts it, the samples pushed for a song with the paused filler removed are exactly the decoded samples of the song in order, followed by exactly nanBreakSize NaN samples; the filler is made of NaN samples in blocks of 512.", "quantifier": "every song length (multiples of 512 included), every decoder block behaviour allowed by the Streamer contract, every pause schedule", "why_tests_cant": "tests use one length and one pause pattern", "anchors": ["playback/playlist.go:Playlist.pushStreamer", "playback/playlist.go:Playlist.StreamLoop", "playback/playlist.go:Playlist.pushNanBreak"]}
{"id": "C10", "title": "Song announcements carry the true start sample", "statement": "Every new-song announcement carries the file name, length and the exact stream index of the first sample pushed for that song; announcements come once per started song, with non-decreasing indices.", "quantifier": "every history of songs, skips, pauses and jumps", "why_tests_cant": "index bookkeeping must agree with the number of samples pushed over an unbounded stream", "anchors": ["playback/playlist.go:Playlist.pushStreamer", "playback/playlist.go:Playlist.SetNewSongHandler"]}
{"id": "C11", "title": "Pause announcements describe the stream", "statement": "Pause/resume announcements strictly alternate starting with a pause, have non-decreasing sample indices, and at every moment of streaming the announcements made so far determine whether a streamed block is filler: between a pause announcement and the next resume announcement all song blocks are NaN filler and otherwise none is.", "quantifier": "every schedule of SetPlaying calls relative to the streaming loop", "why_tests_cant": "the flag is read several times per iteration without synchronisation; only an exploration of all schedules decides it", "anchors": ["playback/playlist.go:Playlist.callPauseToggleHandler", "playback/playlist.go:Playlist.pushStreamer", "playback/playlist.go:Playlist.SetPlaying"]}
{"id": "C12", "title": "Unplayable songs are skipped and the stream goes on", "statement": "A song that cannot be opened or decoded is skipped and the loop continues with the following song; as long as the playlist is empty or holds a song with at least one sample (or any decodable song, if there are breaks between songs), the stream keeps producing samples, from every state with a position that is not negative and however playback is paused and resumed meanwhile.", "quantifier": "every playlist, every set of unplayable or empty files, every state of the loop, every pattern of pausing", "why_tests_cant": "unboundedly many playlists and loop states; a test sees one skip", "anchors": ["playback/playlist.go:StreamLoop", "playback/playlist.go:pushStreamer", "playback/playlist.go:shouldBreakStreamerPushLoop"]}
{"id": "C13", "title": "Fill hands out the stream without loss, duplication or mixing", "statement": "For every interleaving of the streaming loop and Fill, the j-th sample ever returned by Fill is the j-th sample pushed, low and high values of one sample are never mixed, and the index returned by Fill is the stream index of its first sample.", "quantifier": "every interleaving, every channel capacity >= 1, every sequence of Fill sizes (larger than the capacity included)", "why_tests_cant": "two channels and three goroutines; a test observes one schedule", "anchors": ["playback/playlist.go:Playlist.Fill", "playback/playlist.go:Playlist.pushSample", "playback/playlist.go:copyFloatChannel"]}
{"id": "C14", "title": "Streaming loop and Fill never deadlock", "statement": "As long as the producer has samples to push and Fill has room to fill, some goroutine can make a step, and every Fill for k samples finishes within a bounded number of steps once k samples are produced.", "quantifier": "every interleaving, capacity >= 1 and request size", "why_tests_cant": "deadlock freedom is a statement about all reachable states", "anchors": ["playback/playlist.go:Playlist.Fill", "playback/playlist.go:Playlist.pushSample"]}
{"id": "C15", "title": "Sample queue is a bounded FIFO", "statement": "For every sequence of Add/Remove/Peek/Len the ring buffer behaves as a FIFO list: Remove returns the oldest unremoved element, Peek returns it without removing, Len is exact, at most Cap elements are stored, Add waits exactly when Cap elements are stored and Remove/Peek exactly when none is.", "quantifier": "every capacity >= 1 and every operation history (index wrap-around included)", "why_tests_cant": "tests fix capacity 16 and short histories", "anchors": ["playback/timed_sample_queue.go:timedSampleQueue"]}
{"id": "C16", "title": "Sample queue is safe under concurrency", "statement": "For every interleaving of one adding and one removing goroutine, elements come out in the order they were put in, none is lost, duplicated or torn, and at no moment more than Cap are stored.", "quantifier": "every interleaving at the granularity of lock, check, wait, write, increment and broadcast", "why_tests_cant": "the indices are incremented outside the condition's lock; only all schedules decide safety", "anchors": ["playback/timed_sample_queue.go:Add", "playback/timed_sample_queue.go:Remove", "playback/timed_sample_queue.go:waitNotFull", "playback/timed_sample_queue.go:waitNotEmpty"]}
{"id": "C17", "title": "Sample queue wakes its waiters", "statement": "A goroutine waiting in Remove is woken when an element is available, and one waiting in Add is woken when space is available.", "quantifier": "every interleaving and capacity", "why_tests_cant": "a lost wake-up needs one precise schedule", "anchors": ["playback/timed_sample_queue.go:waitNotFull", "playback/timed_sample_queue.go:waitNotEmpty", "playback/timed_sample_queue.go:Add", "playback/timed_sample_queue.go:Remove"]}
{"id": "C18", "title": "A received chunk is queued with the right timestamps", "statement": "Chunks are handed to playback in the order they were queued, every sample exactly once, sample i of a chunk carrying timestamp startTime + i/sampleRate seconds (rounded down to ns); CombineSamples pairs low[i] with high[i].", "quantifier": "every list of chunks, sample rates and chunk sizes", "why_tests_cant": "all sizes and rates, including rates that do not divide a second", "anchors": ["playback/streamer.go:ReadChunks", "playback/playback.go:QueueChunk", "playback/playback.go:CombineSamples", "playback/streamer.go:samplesDuration"]}
{"id": "C19", "title": "Playback follows the timeline even if chunks arrive out of order", "statement": "The samples a player outputs are in the order of their timestamps.", "quantifier": "every arrival order of chunk messages (each is sent and handled in its own goroutine)", "why_tests_cant": "depends on the schedule of unordered goroutines", "anchors": ["playback/playback.go:QueueChunk", "schedule/server_state.go:streamMusic", "comm/package_handler.go:Handle"]}
{"id": "C20", "title": "Between breaks the player plays every sample consecutively", "statement": "Once synchronised, the player outputs the queued samples one after the other without gap, loss or repetition until the next NaN sample, fills the buffer it was given completely, and outputs only silence or queued samples, never a NaN.", "quantifier": "every queue content, buffer size and clock value", "why_tests_cant": "all mixtures of NaN runs and buffer boundaries", "anchors": ["playback/streamer.go:Stream", "playback/streamer.go:streamDirect", "playback/streamer.go:streamSync"]}
{"id": "C21", "title": "Synchronisation aligns to the clock", "statement": "When a player that is synchronising at synchronised time `now` starts to play, the first sample it outputs is the first queued sample (NaN samples aside) that is not overdue, i.e. whose timestamp is not before now; as long as it outputs silence, the next sample is less than one buffer overdue.", "quantifier": "every queue content with arbitrary timestamps, every clock value", "why_tests_cant": "all timestamps and clock values", "anchors": ["playback/streamer.go:streamSync", "playback/streamer.go:Stream"]}
{"id": "C22", "title": "A player that is early loses nothing", "statement": "If the samples of a song arrive before they are due, the player plays all of them, starting with the first one at its timestamp.", "quantifier": "every buffer size, clock value and song start before or inside the current buffer", "why_tests_cant": "the boundary between the three branches depends on now, t and the buffer length", "anchors": ["playback/streamer.go:streamSync"]}
{"id": "C23", "title": "All players play the same thing at the same time", "statement": "For two players with synchronised clocks consuming the same chunk stream, in every slot in which both are playing, the timestamps of the two samples being output differ by no more than a sample period plus rounding (2 ns plus 1 ns per chunk played since synchronisation), whatever moment each of them synchronised.", "quantifier": "every chunk schedule, sample rate, and synchronisation moments, for any number of samples since synchronisation", "why_tests_cant": "a relation between two unbounded runs", "anchors": ["playback/streamer.go:Stream", "schedule/server_state.go:streamMusic", "playback/streamer.go:ReadChunks"]}
{"id": "C24", "title": "Chunk schedule is monotone and drift is bounded", "statement": "The timestamps the server gives to successive samples never go backwards, chunk c starts exactly c chunk durations after the stream start, and precedes the ideal time of its first sample by at most c nanoseconds; first-sample indices of successive chunks are contiguous.", "quantifier": "every chunk size, sample rate and number of chunks", "why_tests_cant": "drift accumulates over unbounded streams and arbitrary configuration values", "anchors": ["schedule/server_state.go:streamMusic", "cmd/music-sync-server/main.go:setScheduleVars"]}
{"id": "C25", "title": "PCM conversion is faithful", "statement": "Every sample is converted to the 16-bit little-endian value nearest below in magnitude of the clamped value times 32768; conversion is monotone, so louder never becomes quieter, and full scale stays full scale.", "quantifier": "every float64 value including the clamping bounds, subnormals and infinities", "why_tests_cant": "2^64 inputs; the test sweeps -32768..32766 only", "anchors": ["playback/playback.go:convertSampleToBytes", "playback/playback.go:samplesToAudioBuf"]}
{"id": "C26", "title": "Clock offset estimate is correct up to path asymmetry", "statement": "For a server clock ahead of the client clock by theta, the offset computed from one exchange is theta exactly when both directions take equally long, and differs from theta by at most half the asymmetry (plus rounding) otherwise.", "quantifier": "every theta, delays and timestamps without 64-bit overflow", "why_tests_cant": "all clock values and delays, including odd sums and negative offsets", "anchors": ["timing/timing.go:UpdateOffset", "comm/package_handler.go:HandleTimeSyncRequest"]}
{"id": "C27", "title": "The synchronised offset is the mean of a full round", "statement": "After ResetOffsets(n) and n responses the offset used by GetSyncedTime is the floor of the mean of exactly those n measurements, hence between the smallest and the largest; before the n-th response of a round the old offset stays in force; the computation cannot overflow.", "quantifier": "every n >= 1, all measurements, all histories of rounds", "why_tests_cant": "histories of responses and all int64 values", "anchors": ["timing/timing.go:UpdateOffset", "timing/timing.go:ResetOffsets", "schedule/infoer.go:syncTime"]}
{"id": "C28", "title": "Time synchronisation never crashes the client", "statement": "No interleaving of response handlers and the start of a new round makes the client panic.", "quantifier": "every interleaving of UpdateOffset goroutines with ResetOffsets", "why_tests_cant": "needs one precise schedule", "anchors": ["timing/timing.go:UpdateOffset", "timing/timing.go:ResetOffsets"]}
{"id": "C29", "title": "Framing survives any segmentation of the byte stream", "statement": "If the frames of messages m1..mk are written to a connection back to back, the receiver reads exactly m1..mk in order, however the byte stream is cut into reads and writes.", "quantifier": "every message list, every segmentation of reads and of partial writes", "why_tests_cant": "segmentation of a TCP stream is uncontrolled", "anchors": ["comm/package_util.go:toWire", "comm/package_util.go:readWire", "comm/package_util.go:readBytes", "comm/package_util.go:sendWire"]}
{"id": "C30", "title": "Message encoding round-trips", "statement": "Every protocol message (time sync, chunk, volume, subscription, song info with lyrics and metadata, chunk info, pause info, ping, pong) is received with all its fields equal to what was sent; float samples are preserved bit for bit, so NaN breaks survive. The only message refused is one whose text fields are not UTF-8: the sender gets an error and nothing is written.", "quantifier": "every field value of every message type", "why_tests_cant": "all int64/uint64/double/strings/nested lists", "anchors": ["comm/packages.proto", "comm/packages.pb.go", "comm/package_util.go:toWire", "comm/package_util.go:readWire"]}
{"id": "C31", "title": "Bad input only costs the connection it came from", "statement": "Whatever bytes a peer sends, the receiving process does not crash: at worst that one connection is closed.", "quantifier": "every byte sequence received", "why_tests_cant": "adversarial inputs", "anchors": ["comm/package_util.go:readWire", "comm/package_util.go:readBytes", "comm/conn_handler.go:handleConnection"]}
{"id": "C32", "title": "Concurrent senders do not corrupt the stream", "statement": "When several goroutines send on one connection at the same time, the receiver still gets every message intact, in some order that respects each sender's own order.", "quantifier": "every interleaving of any number of senders", "why_tests_cant": "schedules of concurrent writes", "anchors": ["comm/message_sender.go:SendMessage", "comm/package_util.go:sendWire"]}
{"id": "C33", "title": "Messages reach exactly the subscribers", "statement": "A broadcast of a channel-bound message is written once to every open connection subscribed to one of its channels and to no other connection; other messages go to every open connection.", "quantifier": "every history of connects, disconnects and subscriptions, and every message type", "why_tests_cant": "histories and sets of connections are unbounded", "anchors": ["comm/message_sender.go:multiMessageSender", "comm/package_util.go:channelOf"]}
{"id": "C34", "title": "A closed connection gets nothing more and disturbs nobody", "statement": "After a connection is removed no broadcast is written to it, and the set of other connections and their subscriptions is unchanged.", "quantifier": "every history in which each connection is added once", "why_tests_cant": "swap-with-last removal must be right for every position and list", "anchors": ["comm/message_sender.go:DelConn", "comm/message_sender.go:AddConn", "comm/conn_handler.go:serverConnectionAcceptor"]}
{"id": "C35", "title": "A failing client does not stop the others and is reported", "statement": "SendMessage attempts every recipient independently; it returns nil iff every write succeeded, and otherwise an error holding exactly the errors of the failed recipients.", "quantifier": "every set of failing connections and every completion order of the sending goroutines", "why_tests_cant": "schedules and failure sets", "anchors": ["comm/message_sender.go:SendMessage", "util/collector.go:ErrorCollector", "util/multi_error.go:MultiError"]}
{"id": "C36", "title": "The last volume set is the one clients use", "statement": "After a sequence of volume commands each client ends up with the last volume.", "quantifier": "every order in which the client runs its handler goroutines", "why_tests_cant": "handlers run in unordered goroutines", "anchors": ["comm/package_handler.go:Handle", "cmd/music-sync-player/main.go:HandleSetVolumeRequest"]}
{"id": "C37", "title": "A new client gets the complete current picture", "statement": "On subscription an audio client is sent the current volume, a meta client the current volume, the newest song (if any) and all retained pauses in order, and nothing else; other channel values cause nothing to be sent.", "quantifier": "every server state and every channel value a peer can send", "why_tests_cant": "all states and all enum values on the wire", "anchors": ["schedule/server_state.go:createClientHandler", "schedule/server_state.go:sendPauses", "comm/package_handler.go:HandleSubscribeChannelRequest"]}
{"id": "C38", "title": "Pruning old pauses loses nothing a client needs", "statement": "removeOldPauses never changes what an info client computes (paused samples, playing or paused) for any position after the start of the newest song.", "quantifier": "every ordered pause history, newest song and later position", "why_tests_cant": "all histories and positions", "anchors": ["schedule/server_state.go:removablePauses", "schedule/server_state.go:removeOldPauses", "cmd/music-sync-infoer/state.go:pausesInCurrentSong"]}
{"id": "C39", "title": "Concurrent pruning is harmless", "statement": "Running several removeOldPauses at once (each pause toggle starts one) has the same effect as running one and never panics.", "quantifier": "every interleaving", "why_tests_cant": "count and removal are separate critical sections", "anchors": ["schedule/server_state.go:removablePauses", "schedule/server_state.go:removeOldPauses", "schedule/server_state.go:createPauseToggleHandler"]}
{"id": "C40", "title": "Queueing several songs keeps their order", "statement": "`queue pattern pos` inserts the matching mp3 files contiguously, in match order, at the clipped position; without a position (or an unparsable one) they are appended in order; the reply names exactly the songs added.", "quantifier": "every playlist, match list and position", "why_tests_cant": "all positions (negative included) and list lengths", "anchors": ["schedule/server_state_commands.go:queueCommandExec", "util/file_utils.go:FilterSongs"]}
{"id": "C41", "title": "A rejected command changes nothing", "statement": "A command answered with its usage message leaves playlist, position, volume and playing state unchanged and sends nothing.", "quantifier": "every command, argument list and server state", "why_tests_cant": "all argument lists", "anchors": ["schedule/server_state_commands.go", "ssh/session_handler.go:execCommand"]}
{"id": "C42", "title": "Each input line runs at most the one command it names", "statement": "A line runs the registered command whose name is its first word with the remaining words as arguments; `clear` and `exit` act as documented; any other line only prints an unknown-command message; the session ends only on exit, end of input or an error.", "quantifier": "every line and every set of registered commands", "why_tests_cant": "all lines and registries", "anchors": ["ssh/session_handler.go:handleLine", "ssh/command.go:commandByName", "ssh/command.go:RegisterCommand"]}
{"id": "C43", "title": "Ctrl-C discards the line", "statement": "Interrupting the prompt does not execute the partially typed line.", "quantifier": "every line typed before the interrupt", "why_tests_cant": "depends on the typed line", "anchors": ["ssh/session_handler.go:readLoop"]}
{"id": "C44", "title": "Command lines are split as documented", "statement": "A line is split at unescaped spaces; `\\ ` stands for a space, `\\\\` for a backslash, any other backslash for itself; empty words are dropped from the arguments; surrounding white space is trimmed; parsing never fails.", "quantifier": "every ASCII line", "why_tests_cant": "all strings; greedy disambiguation of escape runs", "anchors": ["ssh/parser/parser.go:ParseCommand", "ssh/parser/Shell.g4"]}
{"id": "C45", "title": "Arguments reach commands unchanged", "statement": "Whatever characters a word consists of (apart from escapes), the command receives exactly these characters, non-ASCII ones included.", "quantifier": "every Unicode line", "why_tests_cant": "all code points", "anchors": ["ssh/parser/parser.go:ExitCharacter"]}
{"id": "C46", "title": "Unparse is the inverse of parsing", "statement": "Parsing the unparsed form of a command gives the command back.", "quantifier": "every command name and parameter list", "why_tests_cant": "all strings, including spaces, backslashes, empty strings", "anchors": ["ssh/parser/parser.go:Unparse", "ssh/parser/parser.go:ParseCommand"]}
{"id": "C47", "title": "Completion extends what was typed", "statement": "Every completion offered for a line with the cursor at its end, appended to the line, gives a line that parses to the typed command with the last word completed to one of the options starting with it.", "quantifier": "every registry, option function and canonical line", "why_tests_cant": "all lines and options", "anchors": ["ssh/auto_completer.go:Do", "ssh/auto_completer.go:commandArgOptionsWithPrefix", "ssh/auto_completer.go:commandsWithPrefix"]}
{"id": "C48", "title": "Completion never crashes the server", "statement": "Pressing TAB never panics.", "quantifier": "every line, cursor position, registry and option list", "why_tests_cant": "adversarial lines", "anchors": ["ssh/auto_completer.go:commandArgOptionsWithPrefix", "ssh/auto_completer.go:commandsWithPrefix"]}
{"id": "C49", "title": "Displayed sample position is right", "statement": "While chunk information covers the current time, the sample position shown is the chunk's first sample plus the elapsed samples, never decreases as time goes on, and differs by at most one from the sample the players are scheduled to output.", "quantifier": "every chunk schedule, sample rate and clock value inside the covered range", "why_tests_cant": "all clock values and rates", "anchors": ["cmd/music-sync-infoer/state.go:currentSample", "cmd/music-sync-infoer/state.go:removeOldChunks"]}
{"id": "C50", "title": "Displayed song is the one playing", "statement": "The song shown is the announced song with the greatest start index before the current sample, or none if there is none.", "quantifier": "every set of announced songs and every sample", "why_tests_cant": "all sets, ties and orders", "anchors": ["cmd/music-sync-infoer/state.go:currentSong", "cmd/music-sync-infoer/infoer_package_handler.go:HandleNewSongInfo"]}
{"id": "C51", "title": "Pauses in the current song are counted exactly", "statement": "The number of paused samples used for the position in the song equals the number of samples between song start and current sample at which playback was paused according to the announcements; the playing state shown is the one in force just before the current sample; so the position in the song is between 0 and the elapsed samples.", "quantifier": "every ordered pause history, song start and sample >= 0", "why_tests_cant": "all histories; pauses that start before, at, or inside the song or are still open", "anchors": ["cmd/music-sync-infoer/state.go:pausesInCurrentSong", "cmd/music-sync-infoer/state.go:handlePause", "cmd/music-sync-infoer/state.go:Info"]}
{"id": "C52", "title": "Forgetting old data is invisible", "statement": "For every interleaving of incoming information and displays with a non-decreasing clock, each display equals the one computed from everything ever received.", "quantifier": "every history of messages and display times", "why_tests_cant": "unbounded histories with pruning at every display", "anchors": ["cmd/music-sync-infoer/state.go:Info", "cmd/music-sync-infoer/state.go:removeOldChunks", "cmd/music-sync-infoer/state.go:removeOldPauses"]}
{"id": "C53", "title": "Arrival order does not matter to the display", "statement": "The display depends only on the set of messages received, not on the order in which the handler goroutines stored them.", "quantifier": "every permutation of a set of messages with distinct indices", "why_tests_cant": "all permutations; the sort is not stable", "anchors": ["cmd/music-sync-infoer/infoer_package_handler.go", "cmd/music-sync-infoer/state.go"]}
{"id": "C54", "title": "Progress is shown for every song", "statement": "Time in song and progress are shown for whatever song is playing, including a song that starts at stream index 0.", "quantifier": "every song start index", "why_tests_cant": "index 0 doubles as the marker for no song", "anchors": ["cmd/music-sync-infoer/state.go:Info"]}
{"id": "C55", "title": "Lyrics display", "statement": "The lyrics box shows exactly `height` lines, most recent first: the last line whose first word is due, then its predecessors; each with exactly the words due within 100 ms; a line once shown does not disappear as time goes on.", "quantifier": "every lyrics content, height and time", "why_tests_cant": "all contents, including empty lines and unordered timestamps", "anchors": ["cmd/music-sync-infoer/main.go:lyricsHistory", "cmd/music-sync-infoer/main.go:lyricsNextLine", "cmd/music-sync-infoer/main.go:lyricsBuildLine"]}
{"id": "C56", "title": "Lyrics and metadata arrive unchanged", "statement": "Lyrics and metadata converted for the wire on the server and converted back by the info client are equal to the original.", "quantifier": "every lyrics structure (empty lines included) and metadata", "why_tests_cant": "all nested lists", "anchors": ["schedule/server_state.go:toWireLyrics", "cmd/music-sync-infoer/infoer_package_handler.go:HandleNewSongInfo"]}
{"id": "C57", "title": "Durations are displayed correctly", "statement": "The displayed time reads back as the whole seconds of the duration, minutes and seconds below 60 with two digits, hours shown from one hour on.", "quantifier": "every non-negative duration", "why_tests_cant": "all int64 durations, boundaries at 60 s and 1 h", "anchors": ["cmd/music-sync-infoer/main.go:fmtDuration"]}
{"id": "C58", "title": "Log filtering", "statement": "A message is written iff its level is at least the cutoff of its logger, exactly once, to the error stream iff the level is at least WARN, with the message text inserted verbatim even if it contains format placeholders.", "quantifier": "every level, cutoff table, logger name and message text", "why_tests_cant": "all texts, including ones that contain placeholders", "anchors": ["logging/logger.go:GetLogger", "logging/level.go:shouldLog", "logging/cutoff.go:cutoffLevel"]}
{"id": "C59", "title": "Per-package logging flags take effect", "statement": "--comm-logging=X (and the other package flags) sets the cutoff of that package's logger.", "quantifier": "every assignment of the logging flags", "why_tests_cant": "relates flag parsing and logger lookup for all assignments", "anchors": ["cmd/flags.go:HandleLoggingFlags", "cmd/flags.go:newLoggingFlag", "logging/cutoff.go:cutoffLevel"]}
{"id": "C60", "title": "Only authorised users get in", "statement": "A password login succeeds iff the user exists, has a non-empty password and it equals the given one; a key login succeeds iff the user exists and has a parsable key equal to the given one.", "quantifier": "every users table, user name, password and key", "why_tests_cant": "all inputs; absence of any bypass", "anchors": ["ssh/options.go:createPasswordAuthOption", "ssh/options.go:createPublicKeyAuthOption"]}
{"id": "C61", "title": "Listed and queued names denote the files they were found as", "statement": "Joining the music directory with a name reported by ls, completion or queue gives the path of the file that was found.", "quantifier": "every music directory spelling and every file below it", "why_tests_cant": "all path spellings", "anchors": ["util/file_utils.go:removeDirPrefix", "util/file_utils.go:ListAllFiles", "util/file_utils.go:ListGlobFiles", "playback/playback.go:getStreamer"]}
{"id": "C62", "title": "Only songs are offered", "statement": "FilterSongs keeps exactly the names ending in .mp3, in order.", "quantifier": "every list of names", "why_tests_cant": "all lists", "anchors": ["util/file_utils.go:FilterSongs"]}
{"id": "C63", "title": "CurrentSong names the song being played", "statement": "CurrentSong() is the song whose samples are being streamed, and empty when none is.", "quantifier": "every history", "why_tests_cant": "stale values survive only in particular histories", "anchors": ["playback/playlist.go:Playlist.CurrentSong", "playback/playlist.go:Playlist.StreamLoop"]}
{"id": "C64", "title": "A client that stops reading does not stop the service for the others", "statement": "If one client keeps its connection open without reading, other clients still receive every later broadcast, and new clients can still connect and subscribe.", "quantifier": "every set of stalled clients and every schedule", "why_tests_cant": "Needs every schedule of goroutines, lock holders and blocked writes; the failure only appears when a socket buffer is full.", "anchors": ["comm/message_sender.go: multiMessageSender.SendMessage, AddConn, DelConn, Subscribe", "comm/package_util.go: sendWire"]}
{"id": "C65", "title": "Before the stream starts nothing is paused", "statement": "While the first chunk still lies in the future (the sample position shown is negative) pauses announced for later samples are not shown as being in force.", "quantifier": "every negative sample position and every announced pause", "why_tests_cant": "Depends on signed/unsigned conversion for all negative positions; tests use positive samples.", "anchors": ["cmd/music-sync-infoer/state.go: pausesInCurrentSongState.handlePause, state.currentSample"]}
{"id": "C66", "title": "Pause and resume at the same sample index show the later one", "statement": "If playback is paused and resumed (or resumed and paused) while the stream is at one sample index, the info client ends up showing the later of the two states.", "quantifier": "every index and every order in which the two handler goroutines store the announcements", "why_tests_cant": "Depends on goroutine scheduling and on the unspecified order of equal keys in sort.Sort.", "anchors": ["cmd/music-sync-infoer/infoer_package_handler.go: HandlePauseInfo", "comm/package_handler.go"]}
{"id": "C67", "title": "Pauses are recorded in order", "statement": "The server records pause and resume toggles in the order in which they happened, each exactly once.", "quantifier": "every schedule of the goroutines that record toggles", "why_tests_cant": "each toggle is recorded by its own goroutine; a test sees one schedule", "anchors": ["schedule/server_state.go:createPauseToggleHandler", "schedule/server_state.go:removeOldPauses"]}
{"id": "C68", "title": "A newly subscribed info client misses nothing", "statement": "An info client that has subscribed receives the newest song and every later song, and every pause toggle that matters for it, no matter how its subscription interleaves with announcements.", "quantifier": "every interleaving of subscription, song announcements, pause toggles, recording and pruning", "why_tests_cant": "the window between broadcasting, recording and subscribing", "anchors": ["comm/package_handler.go:HandleSubscribeChannelRequest", "schedule/server_state.go:createNewSongHandler", "schedule/server_state.go:createPauseToggleHandler", "schedule/server_state.go:createClientHandler"]}
{"id": "C69", "title": "A new info client shows the song that is playing", "statement": "An info client that subscribes at any time shows the song that is playing at that time.", "quantifier": "every subscription time, song announcement and position", "why_tests_cant": "the next song is announced while the current one plays; all subscription times", "anchors": ["schedule/server_state.go:sendNewestSong", "cmd/music-sync-infoer/state.go:currentSong"]}
{"id": "C70", "title": "Every song is announced, in order", "statement": "Every song that starts streaming is announced to all subscribed info clients, and the newest song kept for new clients is the one that started last.", "quantifier": "every schedule of the goroutines that announce songs", "why_tests_cant": "each song is announced by its own goroutine that collects lyrics and metadata first and reads the shared newest song again when sending", "anchors": ["schedule/server_state.go:createNewSongHandler", "playback/playlist.go:pushStreamer"]}
{"id": "C71", "title": "The playlist listing shows the positions remove and jump take", "statement": "`playlist` changes nothing and shows each song, in order, with a label; giving that label to `remove` removes exactly that song, and giving it to `jump` jumps to exactly that song.", "quantifier": "every playlist of any length, every position in it", "why_tests_cant": "label padding and parsing for every list length and index", "anchors": ["schedule/server_state_commands.go:playlistCommandExc", "schedule/server_state_commands.go:removeCommand", "schedule/server_state_commands.go:jumpCommand"]}
{"id": "C72", "title": "An accepted command changes exactly what it is for, and only one input can crash the server", "statement": "help, ls and playlist change nothing; queue and remove change only the playlist; jump only the position; volume only the volume (and broadcasts it once); pause/resume only the playing flag. No command can panic, except remove with the position just past the end of a non-empty playlist (which does).", "quantifier": "every command, argument list, server state, and file system", "why_tests_cant": "frame and crash-freedom claims over all argument lists and states", "anchors": ["schedule/server_state_commands.go", "ssh/command.go", "playback/playlist.go:RemoveSong"]}
{"id": "C73", "title": "help documents every command", "statement": "`help` lists every registered command once in name order followed by clear and exit, `help name` shows the documentation of the command called name, and any other name is reported as not existing.", "quantifier": "every set of registered commands and every argument", "why_tests_cant": "all registries and names", "anchors": ["ssh/command.go:helpCommand"]}
{"id": "C74", "title": "Logging levels are recognised by name", "statement": "A level given on the command line is recognised by its full or its three letter name in any mixture of upper and lower case; any other text switches the logger off, and then nothing is written.", "quantifier": "every text given as a level and every iteration order of the level table", "why_tests_cant": "all texts and all map iteration orders", "anchors": ["logging/level.go:LevelByName", "cmd/flags.go:HandleLoggingFlags"]}
{"id": "C75", "title": "The control shell never runs unauthenticated and uses the configured host key", "statement": "Whatever the users file and the host key flag are, the ssh server asks for a password or a key; the configured host key file is used iff one is configured and it is a file that can be accessed.", "quantifier": "every users file, host key setting and file content", "why_tests_cant": "all settings, absence of a bypass", "anchors": ["ssh/options.go:getSSHOptions", "ssh/options.go:getHostKeyOption", "ssh/ssh.go:StartSSH"]}
{"id": "C76", "title": "ls reports every file", "statement": "ls reports every file below the given directory, and no name twice.", "quantifier": "every directory tree, including ones with entries that cannot be read", "why_tests_cant": "all trees of any depth", "anchors": ["util/file_utils.go:ListAllFiles", "util/file_utils.go:walker"]}
{"id": "C77", "title": "A name offered by the completion of queue queues that file", "statement": "If completion offers a file name as argument of queue then queue with that argument appends exactly that file to the playlist.", "quantifier": "every directory tree and every file name", "why_tests_cant": "all file names, including ones that contain pattern characters", "anchors": ["schedule/server_state_commands.go:queueCommand", "schedule/server_state_commands.go:queueCommandExec", "util/file_utils.go:ListGlobFiles"]}
{"id": "C78", "title": "Completion of ls goes down one directory at a time", "statement": "The completion of ls offers exactly the directories whose path continues the typed text without crossing a separator, with a separator appended; ls of an offered directory reports the files below that directory only; nothing is offered for later arguments.", "quantifier": "every directory tree and every typed text", "why_tests_cant": "all trees and prefixes", "anchors": ["ssh/command.go:lsCommand", "util/file_utils.go:ListAllSubDirs"]}
{"id": "C79", "title": "Lyrics and tags belong to the song", "statement": "Tags are read from the song's own file, lyrics from the file of the same name with .json appended next to it, and no two songs share a lyrics file.", "quantifier": "every music directory and song name", "why_tests_cant": "all names", "anchors": ["metadata/lyrics_provider.go", "metadata/metadata_provider.go", "playback/playback.go:getStreamer"]}
{"id": "C80", "title": "Handlers only ever see well-formed messages", "statement": "Whatever bytes a peer sends, every message handed to the handlers has texts that are valid UTF-8 and numbers in the range of their field.", "quantifier": "every byte stream in every segmentation", "why_tests_cant": "all byte streams, including crafted ones", "anchors": ["comm/package_util.go:readWire", "comm/conn_handler.go:handleConnection"]}
{"id": "C81", "title": "The volume scales the sound", "statement": "Every sample sent to the sound card is the streamed sample times the volume, to within one 16-bit step, as long as the product stays below full scale: volume 1 leaves samples unchanged, volume 0 is silence, a higher volume never makes a sample quieter or flips its sign, and samples within [-1,1] at a volume below 1 can never overflow.", "quantifier": "all finite float64 samples and volumes (all bit patterns, subnormals included)", "why_tests_cant": "2^128 pairs of floats; the claim depends on rounding of each product", "anchors": ["playback/playback.go: samplesToAudioBuf, convertSampleToBytes, SetVolume"]}
{"id": "C82", "title": "The volume set is the volume shown", "statement": "A volume typed as a plain decimal with at most three decimals is confirmed by the volume command as exactly that number, and with at most four decimals is displayed by every info client as exactly its percentage, although it is stored and sent as a float64 and multiplied by 100.", "quantifier": "all plain decimal texts (up to 10^12), all server states", "why_tests_cant": "infinitely many texts; decimal-binary-decimal rounding errors show up only at particular values", "anchors": ["schedule/server_state_commands.go: volumeCommand, parseFloatParam", "cmd/music-sync-infoer/main.go: drawPlaybackInfo"]}
{"id": "C83", "title": "The progress bar is proportional", "statement": "The info client's progress bar consists of filled cells from the left, at most one half-filled cell, and empty cells; the filled part is within 0.35 cells of the exact proportion of the song that has been played (the last cell is filled as soon as it is reached), it is empty at the start, full at the end, and never moves backwards while the song moves forwards.", "quantifier": "all terminal sizes, all positions in all songs (below 2^53 samples)", "why_tests_cant": "the proportion goes through a float64 quotient and product; all pairs of positions and lengths", "anchors": ["cmd/music-sync-infoer/drawing.go: drawProgress, progressHead", "cmd/music-sync-infoer/state.go: Info"]}
{"id": "C84", "title": "No text breaks the frames", "statement": "Whatever titles, artists, lyrics and sizes there are, the info client's two boxes have complete frames with their labels (Playing/Paused and Lyrics) at the bottom of the terminal, not overlapping each other.", "quantifier": "all texts (valid UTF-8 or not), all lyrics, all terminal sizes with at least 10 columns and 5 rows, all history sizes", "why_tests_cant": "all texts and sizes", "anchors": ["cmd/music-sync-infoer/main.go: drawPlaybackInfo, drawLyrics", "cmd/music-sync-infoer/drawing.go: drawBox, drawString"]}
{"id": "C85", "title": "Title, artist and album are shown as they are", "statement": "The info box shows the title (or the file name if there is no title) and below it artist and album, one character per cell from the left, cut off at the frame.", "quantifier": "all texts, all terminal sizes", "why_tests_cant": "all texts; columns are counted in bytes, not characters", "anchors": ["cmd/music-sync-infoer/drawing.go: drawString", "cmd/music-sync-infoer/main.go: drawPlaybackInfo"]}
{"id": "C86", "title": "Volume and time are always visible", "statement": "The info box always shows the volume and the time in the song right-aligned in its two lines.", "quantifier": "all songs, all volumes, all terminal sizes", "why_tests_cant": "depends on the lengths of all texts and the width of the terminal together", "anchors": ["cmd/music-sync-infoer/main.go: drawPlaybackInfo"]}
{"id": "C87", "title": "Lyrics appear line by line above the info box", "statement": "The lyrics box has as many lines as configured, or as fit; the current line is in the lowest row, each earlier line one row higher, each starting in the first column inside the frame with nothing behind its end; above the box there is nothing.", "quantifier": "all lyrics, times, history sizes and terminal sizes", "why_tests_cant": "all lyrics and sizes", "anchors": ["cmd/music-sync-infoer/main.go: drawLyrics, lyricsHistory"]}
{"id": "C88", "title": "Every player plays the stream the server made", "statement": "From the playlist to the sound card: whatever happens to the playlist, and however chunk messages are split, cut, reordered or lost on the way, every sample frame a player outputs is silence or a sample of the server's stream, due at the time the player plays it for. If a player gets and handles the chunks in order, the samples come in increasing order with none left out until the song is interrupted. The bytes sent to the sound card are that sample scaled by the volume, and zeros for silence.", "quantifier": "all playlists, playlist histories, chunk sizes, sample rates, segmentations and cuts of the connection, queue interleavings, clock readings and buffer sizes", "why_tests_cant": "composes five components, each with its own unbounded nondeterminism", "anchors": ["playback/playlist.go: StreamLoop, Fill", "schedule/server_state.go: streamMusic", "comm/package_util.go: readWire, sendWire", "playback/playback.go: QueueChunk, playLoop", "playback/streamer.go: Stream"]}
{"id": "C89", "title": "The music port gives no control", "statement": "Whatever messages a client sends to the server's music port, the playlist, the volume, the pause state and the other clients' subscriptions are unaffected, and each client receives exactly the answers to its own messages, in order: its time with two server times, a pong, or the welcome of the channel it subscribed to.", "quantifier": "all sequences of messages of all clients, in any order of handling", "why_tests_cant": "all message sequences of all clients", "anchors": ["comm/package_handler.go: serverPackageHandler", "schedule/server_state.go: createClientHandler"]}
{"id": "C90", "title": "The server streams with every accepted configuration", "statement": "For all values of the chunk size and sample rate flags that the server accepts it sends a chunk each time the last one has been played.", "quantifier": "all int values of the flags", "why_tests_cant": "all pairs of 64-bit integers", "anchors": ["cmd/music-sync-server/main.go: setScheduleVars", "schedule/server.go: Server", "schedule/server_state.go: streamMusic"]}
{"id": "C91", "title": "Clients may come while the server starts", "statement": "A client that connects and subscribes while the server is still starting is served.", "quantifier": "all interleavings of the start with messages of clients", "why_tests_cant": "all interleavings; the window is small", "anchors": ["comm/conn_handler.go: StartServer, NewClientHandler", "schedule/server.go: Server", "cmd/music-sync-server/main.go: run", "comm/package_handler.go: HandleSubscribeChannelRequest"]}
{"id": "C92", "title": "Clients are accepted as long as the server runs", "statement": "Every client that connects is served, whatever happened to connections before.", "quantifier": "all sequences of results of Accept", "why_tests_cant": "all sequences of successes and errors", "anchors": ["comm/conn_handler.go: serverConnectionAcceptor"]}
{"id": "C93", "title": "A client that cannot work says so and leaves", "statement": "A client runs until the user ends it (status 0) or until it cannot work any more, because it cannot reach the server, loses the connection, cannot subscribe or cannot open the sound card; then it leaves with status 1. A failed time synchronisation does not end it.", "quantifier": "all interleavings of the client's goroutines and outcomes of their operations", "why_tests_cant": "all interleavings and failures", "anchors": ["cmd/music-sync-player/main.go: run", "cmd/music-sync-infoer/main.go: run", "schedule/player.go: Player", "schedule/infoer.go: Infoer", "comm/conn_handler.go: ConnectToServer"]}
{"id": "C94", "title": "Time synchronisation follows its settings", "statement": "Clients send the configured number of time requests, the configured delay apart, and repeat that in the configured interval.", "quantifier": "all values of the settings, given to any of the programs", "why_tests_cant": "all settings in all programs", "anchors": ["cmd/flags.go: TimeSyncIntervalFlag", "cmd/music-sync-server/main.go: setScheduleVars", "schedule/infoer.go: syncTime", "schedule/schedule.go"]}
{"id": "C95", "title": "A starting player takes over volume and stream", "statement": "A player that just started plays at the volume set on the server, and drops only chunks that arrive before its sound card is ready.", "quantifier": "all interleavings of the initialisation with received messages", "why_tests_cant": "race between the initialisation and the first messages", "anchors": ["playback/playback.go: Init, SetVolume, QueueChunk", "schedule/player.go: Player"]}
{"id": "C96", "title": "Songs play at their recorded speed", "statement": "The samples of a song are played as far apart in time as they were recorded.", "quantifier": "all songs, sample rates of songs and of the stream, chunk sizes, positions", "why_tests_cant": "all rates and positions", "anchors": ["playback/playback.go: getStreamer", "schedule/server_state.go: streamMusic", "playback/playback.go: QueueChunk"]}
{"id": "C97", "title": "No error of a broadcast is lost", "statement": "Collecting the errors of concurrent operations yields exactly the errors that occurred, nil if there was none, and its text lists each with a number; waiting for it ends. The text tells how many clients could not be reached.", "quantifier": "all sets of errors and orders of their insertion", "why_tests_cant": "all interleavings", "anchors": ["util/collector.go: ErrorCollector", "util/multi_error.go: Error", "comm/message_sender.go: SendMessage"]}
{"id": "C98", "title": "Wildcards queue exactly the matching songs", "statement": "queue with a pattern (elements separated by slashes, with *, ?, [a-z], [^a-z] and backslash escapes) adds exactly the .mp3 files below the music directory whose path fits the pattern element by element, each once, in the order of the directory listings; nothing if none fits.", "quantifier": "all directory trees, all well-formed patterns in all ways of writing them, all playlists", "why_tests_cant": "all trees and all patterns", "anchors": ["util/file_utils.go: ListGlobFiles, FilterSongs", "schedule/server_state_commands.go: queueCommandExec"]}
{"id": "C99", "title": "The synchronised clock is the server's clock", "statement": "After a complete synchronisation round, and from then on, a client's synchronised time differs from the server's clock by at most half the asymmetry of the network paths, plus twice the drift of the clocks, plus half a nanosecond - for any number of rounds, late responses and concurrent handlers. The server's own synchronised time is its clock. Consequently sounds that leave two players at the same moment were scheduled for the same moment up to these errors, a sample period and 2 ns plus 1 ns per chunk.", "quantifier": "all clocks with bounded drift, all delays, all interleavings of requests, responses and rounds, all players", "why_tests_cant": "all delays and schedules, unbounded time", "anchors": ["timing/timing.go: GetSyncedTime, UpdateOffset, ResetOffsets", "comm/package_handler.go: HandleTimeSyncRequest", "schedule/infoer.go: syncTime", "cmd/music-sync-player/main.go: HandleTimeSyncResponse", "playback/streamer.go: Stream"]}
{"id": "C100", "title": "The info display tells the truth about the stream", "statement": "At any moment while a song is streamed, the info client (once the announcements about the stream so far have reached it) shows the song being streamed, a sample at most one off the sample the players play at that time, 'playing' exactly when that sample is one of the song and 'paused' exactly when it is the silence of a pause, and as elapsed time that of the samples of the song streamed so far, pauses not counted.", "quantifier": "all playlists, decoders, server schedules (pauses, jumps, edits), orders in which the announcements are handled, and display times", "why_tests_cant": "The claim joins the streaming loop, the schedule and the client's bookkeeping under every interleaving; a test sees one schedule of one of them.", "anchors": ["playback/playlist.go: StreamLoop, callPauseToggleHandler", "schedule/server_state.go: streamMusic", "cmd/music-sync-infoer/state.go: Info, currentSample, currentSong, pausesInCurrentSong"]}
{"id": "C101", "title": "Number arguments are read as written", "statement": "A position argument of jump, remove or queue is accepted exactly when it is an optional sign followed by one or more decimal digits whose value fits a machine integer, and it denotes that value; jump and remove with anything else (or nothing) show their usage and change nothing; further arguments are ignored. Every number shown by the shell can be typed back and denotes itself.", "quantifier": "all argument lists (any text), all playlist states", "why_tests_cant": "The set of argument texts is infinite; boundary values, signs, leading zeros and near-digits all have to be right.", "anchors": ["schedule/server_state_commands.go: parseIntParam, jumpCommand, removeCommand, queueCommand"]}
{"id": "C102", "title": "Pause silences the stream, resume takes it up where it stopped", "statement": "While playback is paused the server streams nothing but silence, whatever is queued, removed, jumped to or resolved meanwhile, and a player that receives only silence plays only silence. While playback is on, the rest of the current song is streamed without a single sample of silence in it, followed by exactly the break between songs. After a pause of any length in a song, resuming streams the song from the very sample at which the pause stopped it.", "quantifier": "every playlist, every song content, every schedule of the streaming loop and of pause, resume, playlist edits (and, for silence, jumps), every length of the pause; every sequence of sound card callbacks of a player", "why_tests_cant": "Pausing races with the streaming loop at every step of a block; tests try one schedule and one song.", "anchors": ["playback/playlist.go: StreamLoop, SetPlaying, playing", "playback/streamer.go: Stream"]}
{"id": "C103", "title": "The wire format is standard protobuf", "statement": "Every frame a peer sends is read as the message that the protobuf specification assigns to it under packages.proto, and every frame that is sent is a standard one: whatever valid encoding of numbers, order of fields, packed or unpacked doubles, repeated scalars or split metadata another implementation or version uses, the same message arrives; fields this version does not know, of any wire type, are ignored wherever they stand; a type given as a URL is the part after the last slash; anything else is not taken for a message of that type.", "quantifier": "every message of packages.proto, every byte stream and segmentation, every record of fields (including nested groups) and every encoding of it, every set of unknown fields", "why_tests_cant": "The space of equivalent encodings and of unknown fields is infinite; tests only decode what the same library encoded.", "anchors": ["comm/package_util.go: toWire, readWire", "comm/packages.proto", "comm/packages.pb.go"]}
{"id": "C104", "title": "The volume command reads floating-point numbers as written", "statement": "`volume <text>` accepts exactly Go's floating-point syntax: a sign, decimal digits with a point and an e exponent, or 0x, hexadecimal digits with a point and a p exponent, single underscores between digits, and the words nan, inf and infinity in any case. The volume becomes the float64 nearest to the number that was written (the even one of two equally near ones), and that value is broadcast; a number that rounds beyond the largest float64 and every other text are answered with the usage message and nothing is broadcast. No text can be read in two ways.", "quantifier": "every text (numbers of up to 2000 characters), every server state and further arguments", "why_tests_cant": "Infinitely many texts and values; rounding errors and syntax corner cases hide between the samples.", "anchors": ["schedule/server_state_commands.go: parseFloatParam, volumeCommand"]}
{"id": "C105", "title": "Lyrics files are read as written, all or nothing", "statement": "The lyrics of a song are what its .json file says: an array of lines of objects with a timestamp and a caption, in any JSON notation (white space, escapes, order of members, further members, repeated members: the last counts). A file that is missing, not JSON or has a wrong type anywhere means no lyrics, never a part of them and never a crash. Captions are always valid text, so that no lyrics file can keep its song from being announced.", "quantifier": "every byte string as file content, every JSON text in the sense of RFC 8259", "why_tests_cant": "unboundedly many JSON notations of the same lyrics and unboundedly many malformed files; the repo tests one file", "anchors": ["metadata/lyrics_provider.go:basicLyricsProvider.CollectLyrics", "metadata/lyrics_provider.go:LyricsAtom", "schedule/server_state.go:createNewSongHandler"]}
{"id": "C106", "title": "The users file decides who may log in", "statement": "The users file is accepted iff it is a JSON object whose members are users with a text as password and a base-64 text (or array of bytes) as public key, null and missing counting as none; then exactly the users in it, with exactly these credentials (the last entry of a name counts), can log in. With any other content the server does not start its control shell.", "quantifier": "every byte string as file content, every user name and login attempt", "why_tests_cant": "unboundedly many files and attempts; the repo tests one valid and one invalid file", "anchors": ["ssh/ssh.go:ReadUsersFile", "ssh/ssh.go:UserAuth", "ssh/options.go:createPasswordAuthOption", "ssh/options.go:createPublicKeyAuthOption", "cmd/music-sync-server/main.go"]}
{"id": "C107", "title": "The command line decides the settings", "statement": "A program starts iff its command line is a sequence of its options (with one or two dashes, value joined by = or as the next argument, no option in two of its forms), asking for neither help, version nor completions; it then runs with exactly the values given, the last one of an option counting and its default where none is given. Any other command line is refused, answered by help or version, or by completions, and never makes the program panic. Host and port given make the address listened on or connected to. Everything on the command line counts; the README's options exist.", "quantifier": "every sequence of byte strings as arguments of each of the three programs", "why_tests_cant": "unboundedly many command lines; the repo tests no command line at all, only the flag lists", "anchors": ["cmd/flags.go", "cmd/music-sync-server/main.go:run", "cmd/music-sync-player/main.go:run", "cmd/music-sync-infoer/main.go:run", "README.md"]}
{"id": "C108", "title": "Numbers and durations on the command line", "statement": "A numeric option takes exactly the integers in Go notation that fit in 64 bits and reads them as their value; a duration option takes exactly an optional sign and one or more decimal amounts with units (or 0), and reads their sum: exactly if the decimals of each amount are no finer than nanoseconds allow (10^k divides the unit), otherwise to within 1.02 ns per amount, and refuses it if it does not fit. Numbers and durations written by Go are read back unchanged. Decimal digits are read as the decimal number they are.", "quantifier": "every byte string as an option's value; every machine integer and duration", "why_tests_cant": "unboundedly many texts, and floating-point rounding of every fraction with up to arbitrarily many decimals", "anchors": ["cmd/flags.go", "cmd/music-sync-server/main.go:run", "cmd/music-sync-infoer/main.go:run"]}
{"id": "C109", "title": "A player hands over every chunk once, whole and in order, under every schedule", "statement": "Chunk messages are handled by one goroutine each, while another goroutine moves the samples of queued chunks into the sample queue; they share a slice and a lock, and the slice's length is also looked at without the lock. Whatever the schedule, single reads and writes included: the player does not crash with an index out of range; every received chunk is queued exactly once; the samples put into the queue are those of the queued chunks, in the order in which these were queued, whole and each with its own time; and nothing gets stuck: while something is left to hand over some goroutine can go on (or the sample queue is full and the play loop has to take a sample), and without new messages the hand-over ends.", "quantifier": "every number of messages, every chunk, every queue capacity and every interleaving of the goroutines at the level of single reads and writes of the shared slice and of the steps of the lock", "why_tests_cant": "a lost update or a crash needs one schedule among very many", "anchors": ["playback/playback.go:QueueChunk", "playback/streamer.go:ReadChunks", "comm/package_handler.go:Handle"]}
{"id": "C110", "title": "Several control sessions can edit the playlist at the same time", "statement": "Sessions and the streaming loop share the playlist. Whatever the schedule, down to single statements: the calls have the results and the effect they would have one after the other in the order in which they return (a listing shows a playlist that existed at one moment), no song is lost, doubled or invented, a session's appended songs keep their order, no call waits forever, and only the inputs that crash a single session's server crash it. The songs of one queue command stay together, and a jump is not lost.", "quantifier": "every number of sessions, every sequence of calls they make and every interleaving of their statements and of the steps of the lock", "why_tests_cant": "torn edits and lost updates need one schedule among very many", "anchors": ["playback/playlist.go:AddSong", "playback/playlist.go:InsertSong", "playback/playlist.go:RemoveSong", "playback/playlist.go:Songs", "playback/playlist.go:nextSong", "playback/playlist.go:SetPos", "schedule/server_state_commands.go:queueCommandExec"]}
{"id": "C111", "title": "The log tells who tried to get in and who is connected", "statement": "Every failed login attempt at the control port is logged once, with the address it came from and the user name it was made for; somebody who logs in correctly leaves no failed attempt; every session is logged when it starts and once when it ends; and the log can be read back: nobody who cannot log in can make entries appear that the server did not write.", "quantifier": "every users file, every sequence of authentication requests of a connection (passwords, keys offered with or without a valid signature, any user names) and every input of a session", "why_tests_cant": "over all request sequences and all texts for user names", "anchors": ["ssh/options.go:createPasswordAuthOption", "ssh/options.go:createPublicKeyAuthOption", "ssh/session_handler.go:sessionHandler", "ssh/session_handler.go:readLoop", "logging/logger.go:GetLogger"]}
{"id": "C112", "title": "The volume typed is the volume heard", "statement": "A number typed with `volume` in any of the accepted notations reaches every player as one volume message, and a player that handled it as its last volume message writes, for every sample between -1 and 1, the typed number times the sample to its sound card, to within one 16-bit step and 2^-36 of a step and never on the other side of zero, as long as the product is below full scale. A typed number equal to 1 leaves every sample as it is.", "quantifier": "all accepted texts up to 2000 characters, all server states, all cuts of the connection into pieces, all other messages before and after, all float64 samples", "why_tests_cant": "the path goes through text, rounding to float64, protobuf and zlib framing, a float product and a truncation; the number of texts and samples is astronomically large", "anchors": ["schedule/server_state_commands.go:volumeCommand", "comm/package_util.go", "cmd/music-sync-player/main.go:playerPackageHandler", "playback/playback.go:SetVolume,samplesToAudioBuf,convertSampleToBytes"]}
{"id": "C113", "title": "The info screen follows the terminal and gives it back", "statement": "The info client redraws for the current size of the terminal: once a change of the size has been noticed, every redraw that starts shows exactly the screen for the new size, although the size is changed by another goroutine in the middle of redraws. Ctrl-C, and no other key, ends the client with status 0 after at most one more redraw; nothing is drawn afterwards. However the client ends, the terminal is given back to the shell.", "quantifier": "all interleavings of the drawing loop, the event loop, resizes, key presses and failures of the connection; all sizes and contents", "why_tests_cant": "the races between resizes, reads of the size inside a redraw and the end of the loop depend on the schedule", "anchors": ["cmd/music-sync-infoer/main.go:tcellLoop,redraw,drawPlaybackInfo,drawLyrics", "cmd/music-sync-infoer/drawing.go:eventLoop", "comm/conn_handler.go:ConnectToServer"]}
{"id": "C114", "title": "The generated parser reads every line as the grammar file says", "statement": "Every line typed at the prompt has exactly one reading under ssh/parser/Shell.g4 (repetitions take all they can, earlier alternatives first), no part of the line is lost in it, and the lexer and parser generated from the file, driven by the tables compiled into the program, end with that reading: no line is a syntax error and no token is left over.", "quantifier": "all lines of Unicode code points, of any length; every amount of input the runtime's prediction looks at", "why_tests_cant": "lines are unbounded and the tables are opaque numbers: a wrong word in them can show only on some combination of characters; how far prediction looks ahead depends on the whole rest of the line", "anchors": ["ssh/parser/Shell.g4", "ssh/parser/shell_parser/shell_lexer.go:serializedLexerAtn,NewShellLexer", "ssh/parser/shell_parser/shell_parser.go:parserATN,Line,Command,Parameter,CommandString,RawString,Character", "ssh/parser/parser.go:getParser,ParseCommand"]}
{"id": "C115", "title": "The messages compiled into the program are those of packages.proto", "statement": "The compressed descriptor in the program unpacks (check sum included) to the descriptor of comm/packages.proto; every Go message type points to the message of its registered name and its tagged fields fit it; so every message the program marshals, and every byte string it unmarshals, is coded with the field numbers, types and order packages.proto gives, and programs written from packages.proto in any language can talk to it.", "quantifier": "all messages with all field values; all byte strings read; all message types", "why_tests_cant": "the layout is decided at run time by 641 opaque compressed bytes and by struct tags; tests between two copies of the same program cannot see a layout that differs from the .proto file, and messages are unbounded", "anchors": ["comm/packages.proto", "comm/packages.pb.go:fileDescriptor0,Descriptor,init", "comm/package_util.go:toWire,readWire"]}
{"id": "C116", "title": "What a process keeps does not grow with the time it has been running", "statement": "However many clients have come and gone and however many songs have been played, the server holds one entry per connected client and nothing about others, and the pauses since the newest song began plus at most two; the info client holds the chunks that have not ended (bounded by how far the server plans ahead), the pauses since the current song began plus at most two, and the songs that are not over.", "quantifier": "all histories of connects, subscribes and disconnects; all executions of the info client with any interleaving of messages and redraws; all sequential lives of the server", "why_tests_cant": "a leak only shows over unbounded histories; a test ends after a few connections or songs", "anchors": ["comm/message_sender.go:AddConn,DelConn,Subscribe", "cmd/music-sync-infoer/state.go:removeOldChunks,removeOldPauses", "cmd/music-sync-infoer/infoer_package_handler.go:HandleNewSongInfo", "schedule/server_state.go:removeOldPauses"]}
{"id": "C117", "title": "Compressed bodies: every standard one is read, a damaged one is not taken for a message", "statement": "The body of a frame may be written by any compressor: every zlib stream (RFC 1950/1951, any mixture of stored, fixed-code and dynamic-code blocks) of any encoding of a message is read as that message. A body that is cut short or whose check sum is wrong or missing is recognised as damaged and is not handled as a message.", "quantifier": "every message, every encoding, every zlib stream of it, every cut position and trailer", "why_tests_cant": "unboundedly many streams for the same data; every cut position of every stream", "anchors": ["comm/package_util.go:readWire", "comm/package_util.go:toWire"]}
{"id": "C118", "title": "Reading a frame takes memory in proportion to the bytes received for it", "statement": "The buffers made while one frame is read add up to at most a fixed multiple of the bytes that were received for it: the decompressed message is at most 1032 times as long as its compressed body (and that factor is reached), so a frame that has arrived completely costs at most 1033 times its size. A peer cannot make the process set aside memory for bytes it has not sent.", "quantifier": "every byte sequence, sent in any pieces, standard or malicious", "why_tests_cant": "The bound is about all compressed bodies, including ones no compressor writes; a test measures the ones it has.", "anchors": ["comm/package_util.go:readWire", "comm/package_util.go:readBytes"]}
{"id": "C119", "title": "A server that cannot work says so and leaves", "statement": "Started with a music directory, an address it can listen on and a users file, the server stays and takes clients; without one of them it ends with code 1 and names on standard error the directory, address or file it could not use. While it runs there is a control shell, with the host key of the configured file or, without such a file, a generated one.", "quantifier": "every configuration, file system, users file, key file and state of the network", "why_tests_cant": "All combinations of what can fail at the start; that nothing fails silently is about all of them.", "anchors": ["cmd/music-sync-server/main.go:run", "comm/conn_handler.go:StartServer", "ssh/ssh.go:StartSSH", "ssh/options.go:getHostKeyOption", "util/file_utils.go:CheckDir"]}
{"id": "C120", "title": "The clients work with every setting they accept", "statement": "Whatever sample rate and lyrics history size were accepted on the command line, the info client draws its screen for whatever it has received and however large the terminal is, and the player plays: a tenth of a second at a time, with a queue of two seconds.", "quantifier": "every sample rate, history size, terminal size, received history and time", "why_tests_cant": "The settings are all 64-bit numbers; crashes come from divisions, overflows and allocations for particular ones, combined with what has been received.", "anchors": ["cmd/music-sync-infoer/state.go:Info", "cmd/music-sync-infoer/state.go:length", "cmd/music-sync-infoer/main.go:drawLyrics", "cmd/music-sync-infoer/main.go:lyricsHistory", "playback/playback.go:Init", "playback/timed_sample_queue.go:newTimedSampleQueue"]}
{"id": "C121", "title": "The shell's answers are plain text", "statement": "Whatever is typed into the control shell and however the songs are called, the shell sends the administrator's terminal only printable text and line ends, apart from the cursor movement `clear` asks for; printable input and names are never turned into or passed on as control characters that would operate the terminal.", "quantifier": "for every session (sequence of typed lines, interrupts and ends), every set of registered commands, every playlist, directory content, error text and state", "why_tests_cant": "tests check a few ASCII lines; the claim ranges over all typed Unicode characters, all file names and all sequences of commands", "anchors": ["ssh/session_handler.go: handleLine, execCommand", "ssh/parser/parser.go: ExitCharacter", "ssh/command.go: helpCommand, lsCommand", "schedule/server_state_commands.go"]}
{"id": "C122", "title": "Playing songs does not use up the files a process may have open", "statement": "However many songs have been played, announced or skipped, the server can still open the next song, its lyrics and its tags, and accept the next client: what it opens for a song is given back when the song is over.", "quantifier": "all playlists and music directories, all interleavings of the streaming loop, song handlers, clients coming and going and runs of the garbage collector, all limits on open files", "why_tests_cant": "a leak only shows after the operating system's limit of open files is reached, and the garbage collector hides it at unpredictable times", "anchors": ["playback/playback.go:getStreamer", "playback/playlist.go:StreamLoop,pushStreamer", "metadata/lyrics_provider.go:CollectLyrics", "metadata/metadata_provider.go:CollectMetadata", "comm/conn_handler.go:serverConnectionAcceptor"]}
{"id": "C123", "title": "The playlist's list of songs is its own", "statement": "The list of songs changes only through the playlist's methods and behaves as a plain value; what Songs() returned stays as it was whatever is done to the playlist later, and writing into it, appending to it or cutting it never changes the playlist or anybody else's result.", "quantifier": "all histories of AddSong, InsertSong, RemoveSong and Songs, all things the callers do with the slices they hold, all amounts of room the runtime allocates for append", "why_tests_cant": "whether two slices share an array depends on the whole history and on how much the runtime happened to allocate; a test sees one such history", "anchors": ["playback/playlist.go:NewPlaylist,Songs,AddSong,InsertSong,RemoveSong", "schedule/server.go:Server"]}
{"id": "C124", "title": "StreamLoop runs until its context is cancelled, and then ends", "statement": "StreamLoop does not return before its context is cancelled; once it is, at most one more song is started (none if one is being streamed), and it returns when the current song is over.", "quantifier": "all playlists, all moments of cancelling, all interleavings with edits, jumps, pausing and resuming", "why_tests_cant": "the cancelling can come between any two steps of the loop, and not returning cannot be observed by a test", "anchors": ["playback/playlist.go:StreamLoop,pushStreamer", "util/context.go:IsCanceled"]}
{"id": "C125", "title": "A control session works while the server is still registering its commands", "statement": "The server registers its commands one after the other, beside sessions that are open already. A session that types the name of a command that is registered runs that command and no other, one that types anything else is told the command is unknown, `help` and completion list each registered command once in alphabetical order, whatever registrations go on meanwhile; and open sessions do not keep the registrations from finishing.", "quantifier": "For all lists of commands, all ways append grows the table, all sorting procedures that only swap elements, and all interleavings of the registrations with lookups and listings of any number of sessions.", "why_tests_cant": "The table is read and sorted in place without a lock; which of the interleavings occurs depends on the scheduler, on the capacity of the table at that moment and on where a copy of a command is interrupted.", "anchors": ["ssh/command.go:RegisterCommand", "ssh/command.go:commandByName", "ssh/command.go:helpCommand", "ssh/session_handler.go:handleLine", "ssh/auto_completer.go:commandNames", "schedule/server.go:Server", "cmd/music-sync-server/main.go:run"]}
{"id": "C126", "title": "A jump takes effect whenever it comes", "statement": "A jump given at any moment takes the playlist to the place asked for, also while the streaming loop is just choosing the next song or going on to it.", "quantifier": "every schedule of the streaming loop and any number of callers of SetPos, with reading and writing the position as separate steps", "why_tests_cant": "the moment between reading and writing back the position is a few instructions long; no test can hit all such moments", "anchors": ["playback/playlist.go: nextSong, StreamLoop, shouldBreakStreamerPushLoop, SetPos"]}
{"id": "C127", "title": "What is shown as the current song is a song", "statement": "Whenever the current song is asked for, the answer is the name of the song that is being played, or was when the question began, or no song if none was played yet; asking never ends the server.", "quantifier": "every schedule of the streaming loop and a control session asking for the current song, with the two words of a string read and written one at a time and in either order, and every content of the memory behind the names", "why_tests_cant": "the bad answers need the question to fall between two adjacent machine instructions of the loop; what then lies behind the name in memory differs from run to run", "anchors": ["playback/playlist.go: currentSong, StreamLoop, CurrentSong", "schedule/server_state_commands.go: 110"]}
{"id": "C128", "title": "Everybody ends up with the volume set last", "statement": "After volume commands every subscribed client plays at the volume that was set last, which is also the server's volume and the one a client subscribing later is sent; each session's reply names the volume it set; and a command that is refused because its argument is no number changes nothing. (Violated: two sessions setting the volume at once can leave clients at different volumes for good, a client subscribing meanwhile can keep the old one, and a typo in one session can silence all clients for another session's command.)", "quantifier": "every schedule of any number of control sessions' volume commands (from parsing the argument over reading the volume for the message, the broadcast's writes to the single clients in any order, failing ones included, to reading it for the reply), any number of clients' subscriptions and the volume sent to them", "why_tests_cant": "the volume is an unprotected field read three times per command and once per subscription, and broadcasts hold only a read lock, so their writes to the clients interleave; a test sees one interleaving", "anchors": ["schedule/server_state_commands.go:159-177 volumeCommand", "schedule/server_state_commands.go:13-22 parseFloatParam", "schedule/server_state.go:27-29 sendVolume", "schedule/server_state.go:45-56 createClientHandler", "comm/message_sender.go:25-56 SendMessage", "comm/message_sender.go:81-89 Subscribe", "comm/package_handler.go:102-105 handleSubscribeChannel"]}
{"id": "C129", "title": "The sample queue serves any number of goroutines", "statement": "However many goroutines call Add, Remove, Peek and Len on a sample queue, each call behaves as if it were made at one moment between its beginning and its end on a FIFO of the buffer's capacity; no element of the buffer is read or stored into while another goroutine stores into it; and the calls never wait for each other for ever: if no goroutine can go on, those waiting are waiting only for space or only for an element. (Violated: Len called while an Add waits for space, followed by a Remove, blocks all three for ever; a Remove can sleep beside one stored element.)", "quantifier": "every number of goroutines, every sequence of calls each of them makes, every buffer size, every interleaving of single steps (announcing to and draining an RWMutex, taking and releasing cond.L, checking, entering the notify list, being woken, reading, storing, incrementing)", "why_tests_cant": "tests use one goroutine, or one on each side; the deadlock and the lost wake-up need a particular order of steps of three and two goroutines, and linearizability speaks of all of them", "anchors": ["playback/timed_sample_queue.go:15-95 (Add, Remove, Peek, Len, waitNotFull, waitNotEmpty)"]}
{"id": "C130", "title": "The stream is the songs of the playlist, one after the other", "statement": "Apart from NaN samples, which a player turns into silence, the server's stream consists of the announced songs in the order of their announcements, each from its first sample on, without a gap, and nothing else. As long as nobody jumps, every announced song but the last has been streamed whole. If moreover the playlist is not edited, the stream so far is at every moment, however it was paused, the beginning of the songs of the playlist one after the other, starting over after the last; left alone while playing, the server gets through any number of rounds of it. A player that gets the chunks in order plays that programme with nothing but omissions and silence: no repetition, no other order, no foreign sample. Whatever is done, only songs that were in the playlist at the start or have been put in are played; a song that has been removed (every copy of it) is not started again unless the loop is already opening it.", "quantifier": "every playlist and contents of the files, every interleaving of the streaming loop with pauses, edits and jumps (as the clause says), every chunk size, segmentation of the connection and sequence of player clock readings, at every point of the run", "why_tests_cant": "the claim is about the whole stream of an unbounded run under every schedule of pauses, edits and jumps between the single steps of the loop; a test hears one song under one schedule", "anchors": ["playback/playlist.go: StreamLoop, nextSong, pushStreamer, shouldBreakStreamerPushLoop, pushNanSamples, pushNanBreak, callPauseToggleHandler", "playback/playlist.go: Fill, SetPlaying, SetPos", "server/sync.go: streamMusic", "playback/streamer.go: Stream"]}
{"id": "C131", "title": "Every song of the playlist gets its turn", "statement": "However the server got where it is (edits, pauses, jumps to positions from 0 on), if it plays and is left alone from now on, then after finitely many steps of the streaming loop every playable song of the playlist has been announced and streamed whole, with no more songs announced before it than the playlist has plus one for each jump that is still waiting to interrupt a song; and the loop does make those steps.", "quantifier": "every playlist, every history of edits, pauses and jumps, every step at which the loop can be, every playable song in the playlist", "why_tests_cant": "the claim starts from every reachable state of the loop and is about what must happen eventually; a test starts from a few states and waits for a fixed time", "anchors": ["playback/playlist.go: StreamLoop, nextSong, pushStreamer, shouldBreakStreamerPushLoop", "playback/playlist.go: InsertSong, AddSong, RemoveSong, SetPos, SetPlaying"]}
{"id": "C132", "title": "Pause, resume and jump are heard soon", "statement": "However the streaming loop, the delivery of samples to chunks and the controls interleave, sample by sample: what is delivered is always a beginning of the stream the loop makes. After a pause nothing but silence is delivered behind the samples already delivered, those of the delivery under way, one channel buffer (one second) and one block of 512 samples; so every chunk from there on is silent as a whole. After a resume the rest of the song follows just as soon, without a gap. After a jump at most one more block of the old song comes before the song jumped to. A delivery under way never gets stuck.", "quantifier": "every playlist and song content, every buffer size and request size, every interleaving of single channel operations with the loop's steps and the calls of other goroutines, every moment at which the control is used", "why_tests_cant": "the control can be used between any two of the loop's channel operations, with any filling of the buffer and any request under way; the bound must hold for all of them and however long the run goes on", "anchors": ["playback/playlist.go StreamLoop, pushStreamer, pushBuffer, pushNanSamples, pushSample, Fill, SetPlaying, SetPos", "schedule/server_state.go streamMusic"]}
{"id": "C133", "title": "How many seconds a pause and a resume take", "statement": "From the moment playback is paused, until it is resumed, every sample whose time to be played is later than the stream delay, one second (the time a full channel lasts) and 512 sample periods from then is silence: with the default settings the rooms are silent at most 16.01 s after the pause, however ticks are late or lost, whatever else is done and however long it lasts. From the moment it goes on again, as long as nobody pauses or jumps, every sample due later than that and another 512 sample periods is the next one of the rest of the song, without a gap, up to the break behind it.", "quantifier": "every playlist and song content, chunk size, sample rate, stream delay and moment of the pause, every interleaving of the loop, the delivery, the controls and the ticker, and every lateness of the ticker", "why_tests_cant": "the bound must hold for a pause at any moment of any schedule and of any filling of the channels, and for as long as the pause lasts; a test measures one pause", "anchors": ["schedule/server_state.go streamMusic", "playback/playlist.go StreamLoop, pushSample, Fill, SetPlaying", "schedule/server_state_commands.go pauseCommand"]}
{"id": "C134", "title": "Chunks are sent before they are due", "statement": "The message of every chunk is made before the first of its samples is to be played, whatever stream delay the server accepted and however long it has been running.", "quantifier": "every chunk size, sample rate and stream delay, every schedule of ticker, loop and delivery, every chunk", "why_tests_cant": "whether a chunk is late depends on the whole history of ticks before it: a test of any length sees one history, and the effect of a lost tick never goes away", "anchors": ["schedule/server_state.go streamMusic", "cmd/music-sync-server/main.go setScheduleVars", "cmd/flags.go StreamDelayFlag, StreamChunkSizeFlag"]}
