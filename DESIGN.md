# Formal model of LogicalOverflow/music-sync in Coq 8.16.1

## Conventions

* Source: `/repo` (Go, read as text only). Every definition of a model cites file and lines; every
  simplification is stated in that comment.
* Per area `X`: `XModel.v` (the code), `XSpec.v` (a small specification that does not use the model's
  helpers), `XProofs.v` (lemmas), `XProps.v` (the property theorems `Cnn_...`, `Example`s showing that
  a concrete non-trivial case meets their hypotheses, and `Print Assumptions` for each).
* Go semantics (`GoBase.v`): a computation is `Ok v` or `Panic`; slices are lists with explicit bound
  checks; `int`/`int64` are `Z` with `wrap64` where overflow can occur; `/` and `%` truncate; float64
  values are their 64-bit patterns; text is a list of code points, byte strings are lists of bytes.
* Goroutines are state machines over explicit atomic steps; theorems range over every sequence of steps.
* When the code violates a property: the model stays faithful, the strongest true version is proved
  (`_partial`) and a `_refuted` theorem proves the violation, for all inputs of a class where possible.
  MANIFEST.json then says "partial" and names the defect. A `_refuted` theorem is a proved statement
  about the code, not an open goal.

## Per property: what is modelled and how it is proved

The exact theorem names are in MANIFEST.json.

| Property | Title | Status | Model | Proof |
|---|---|---|---|---|
| C01 | Inserting and appending songs | proved | PlaylistModel | slice-level copy/append code is computed; equality with firstn/skipn insertion for every index by case analysis on the clamping |
| C02 | Removing a song | partial | PlaylistModel | same; the panic at i = len is derived from the slice bound check |
| C03 | Playlist histories refine a plain list | proved | PlaylistModel | induction over edit histories, refinement to an inductively specified list edit relation |
| C04 | Playback order wraps around | proved | PlaylistModel | induction over loop steps with an invariant linking position, finished songs and the cyclic order of playable songs |
| C05 | Jump targets are accepted safely | partial | PlaylistModel | Go's truncated % computed; exact crash condition by case analysis, witness run |
| C06 | A jump interrupts once and lands on the target | partial | PlaylistModel | state machine of jump instructions and loop iterations; witnesses are complete runs PlaylistTightProps: invariant over left-over jump tokens (every history of that kind fails). |
| C07 | Jump never hangs the control session | partial | PlaylistModel | bounded token channel; progress by counting tokens, hang by an invariant of the blocked state PlaylistTightProps: conservation of tokens while nothing is playable. |
| C08 | Editing elsewhere does not change what plays next | partial | PlaylistModel | commutation of edits with nextSong PlaylistTightProps: the next song by number for arbitrary edits, with the two corollaries. |
| C09 | A song is streamed completely, once, in order | proved | PlaylistModel | induction over blocks of 512 samples for every pause/edit schedule |
| C10 | Song announcements carry the true start sample | proved | PlaylistModel | trace invariant: announced index = number of samples emitted before |
| C11 | Pause announcements describe the stream | partial | PlaylistModel | trace invariant over schedules; the race is a universal counterexample |
| C12 | Unplayable songs are skipped and the stream goes on | proved | PlaylistModel loop; a playable song is one that decodes to a sample (or breaks are on). | A measure (distance to a playable song plus unnoticed jumps, and the place in the loop) that every loop step decreases unless it produces samples; starvation by an invariant. C12_loop_goes_on: from every state with a non-negative position some loop step is possible after any waiting actions, so the theorem applies again and again. |
| C13 | Fill hands out the stream without loss, duplication or mixing | proved | ChanModel | inductive invariant over every interleaving of producer, two copy goroutines and caller |
| C14 | Streaming loop and Fill never deadlock | proved | ChanModel | progress theorem plus decreasing measure |
| C15 | Sample queue is a bounded FIFO | proved | QueueModel | refinement of the ring buffer to a list |
| C16 | Sample queue is safe under concurrency | proved | QueueModel | inductive invariant over the fine-grained interleaving of lock, check, register, write, broadcast |
| C17 | Sample queue wakes its waiters | partial | QueueModel | inductive invariant; witness traces for every capacity |
| C18 | A received chunk is queued with the right timestamps | proved | PlayerModel | induction over chunks and samples |
| C19 | Playback follows the timeline even if chunks arrive out of order | partial | PlayerModel | induction over the queue; witness for swapped chunks |
| C20 | Between breaks the player plays every sample consecutively | proved | PlayerModel | induction over Stream calls |
| C21 | Synchronisation aligns to the clock | proved | PlayerModel | analysis of streamSync, floor-division arithmetic |
| C22 | A player that is early loses nothing | partial | PlayerModel | universal counterexample and loss bound by arithmetic |
| C23 | All players play the same thing at the same time | proved | PlayerModel + ScheduleModel | composition of C21, C20, C24 |
| C24 | Chunk schedule is monotone and drift is bounded | proved | ScheduleModel + ChanModel | floor arithmetic, composition with C13 |
| C25 | PCM conversion is faithful | partial | PcmModel | exact integer arithmetic on float64 bit patterns |
| C26 | Clock offset estimate is correct up to path asymmetry | proved | TimingModel | linear arithmetic with wrap-around excluded by hypothesis |
| C27 | The synchronised offset is the mean of a full round | proved | TimingModel | induction over every interleaving of responses |
| C28 | Time synchronisation never crashes the client | partial | TimingModel | invariant; universal witness of the division by zero |
| C29 | Framing survives any segmentation of the byte stream | proved | WireModel | induction over the byte stream; reads split arbitrarily |
| C30 | Message encoding round-trips | proved | WireModel | field-by-field round trip of the protobuf encoding, induction on repeated fields |
| C31 | Bad input only costs the connection it came from | partial | WireModel | exact characterisation of the receiver's outcome for every byte stream |
| C32 | Concurrent senders do not corrupt the stream | proved | WireModel | interleavings of atomic frame writes |
| C33 | Messages reach exactly the subscribers | proved | SenderModel | invariant over histories and schedules |
| C34 | A closed connection gets nothing more and disturbs nobody | proved | SenderModel | same |
| C35 | A failing client does not stop the others and is reported | proved | SenderModel | transition system of writer and collector goroutines, measure |
| C36 | The last volume set is the one clients use | partial | SenderModel | any permutation of handlers; universal counterexample |
| C37 | A new client gets the complete current picture | proved | ServerModel + InfoerModel | message lists, composition with the client model |
| C38 | Pruning old pauses loses nothing a client needs | proved | ServerModel | counting specification, induction over the server's life |
| C39 | Concurrent pruning is harmless | partial | ServerModel | split of pruning into its critical sections, interleavings |
| C40 | Queueing several songs keeps their order | partial | CommandsModel | induction on the matches |
| C41 | A rejected command changes nothing | partial | CommandsModel | case analysis over all commands and arguments |
| C42 | Each input line runs at most the one command it names | proved | CommandsModel | induction over input histories |
| C43 | Ctrl-C discards the line | partial | CommandsModel | session loop with readline's ErrInterrupt result |
| C44 | Command lines are split as documented | proved | ParserModel | tokenizer+grammar against an inductive splitting specification, determinism |
| C45 | Arguments reach commands unchanged | partial | ParserModel | UTF-8 last-byte arithmetic |
| C46 | Unparse is the inverse of parsing | partial | ParserModel | exact condition for round trip (iff) |
| C47 | Completion extends what was typed | partial | CompleterModel | induction over the typed line; for other scripts the byte position computed, and a counterexample for every such first character |
| C48 | Completion never crashes the server | partial | CompleterModel | slice bound analysis, exact condition |
| C49 | Displayed sample position is right | proved | InfoerModel | floor arithmetic, selection of the current chunk |
| C50 | Displayed song is the one playing | proved | InfoerModel | maximum over received songs |
| C51 | Pauses in the current song are counted exactly | proved | InfoerModel | counting specification over toggles |
| C52 | Forgetting old data is invisible | partial | InfoerModel + InfoerExec | simulation between forgetting and remembering client; witnesses |
| C53 | Arrival order does not matter to the display | proved | InfoerModel | sorted insertion is permutation invariant |
| C54 | Progress is shown for every song | partial | InfoerModel | computation; universal counterexample at index 0 |
| C55 | Lyrics display | proved | InfoerModel | induction over lyrics lines |
| C56 | Lyrics and metadata arrive unchanged | partial | InfoerModel + WireModel | conversion and round trip composition |
| C57 | Durations are displayed correctly | proved | InfoerModel + GoFmt | decimal arithmetic |
| C58 | Log filtering | proved | LoggingModel | case analysis against a filter specification |
| C59 | Per-package logging flags take effect | partial | LoggingModel | table lookups; universal counterexample over flag assignments |
| C60 | Only authorised users get in | proved | AuthModel | decision functions against an inductive specification |
| C61 | Listed and queued names denote the files they were found as | partial | FilesModel | filepath.Clean/Rel/Join as functions on elements; induction on the tree |
| C62 | Only songs are offered | proved | FilesModel | inductive specification, both directions |
| C63 | CurrentSong names the song being played | partial | PlaylistModel | trace invariant |
| C64 | A client that stops reading does not stop the service for the others | partial | SenderModel | blocked-write state, invariants of the reader/writer lock |
| C65 | Before the stream starts nothing is paused | partial | InfoerModel | universal counterexample (unsigned conversion) |
| C66 | Pause and resume at the same sample index show the later one | partial | InfoerModel | two arrival orders, same index |
| C67 | Pauses are recorded in order | partial | ServerModel | interleaving of handlers |
| C68 | A newly subscribed info client misses nothing | partial | ServerModel | interleaving of subscription, snapshot and broadcasts |
| C69 | A new info client shows the song that is playing | partial | ServerModel + InfoerModel | universal counterexample |
| C70 | Every song is announced, in order | partial | ServerModel | interleaving of announcement goroutines |
| C71 | The playlist listing shows the positions remove and jump take | proved | CommandsModel + GoFmt | decimal labels, parse back |
| C72 | An accepted command changes exactly what it is for, and only one input can crash the server | proved | CommandsModel | frame specification per command; exact crash condition |
| C73 | help documents every command | proved | CommandsModel | registry lookup |
| C74 | Logging levels are recognised by name | proved | LoggingModel | table against specification |
| C75 | The control shell never runs unauthenticated and uses the configured host key | proved | AuthModel | computation of the option list |
| C76 | ls reports every file | partial | FilesModel | induction on the tree; witness |
| C77 | A name offered by the completion of queue queues that file | partial | FilesModel | pattern matcher on literal names; universal counterexample |
| C78 | Completion of ls goes down one directory at a time | proved | FilesModel | both directions |
| C79 | Lyrics and tags belong to the song | proved | FilesModel | injectivity of the name construction |
| C80 | Handlers only ever see well-formed messages | proved | WireModel | decoder invariant |
| C81 | The volume scales the sound | proved | PcmModel + GoFloat | exact float64 product: monotone, exact on representable values, error bound |
| C82 | The volume set is the volume shown | proved | VolumeModel + CommandsModel + GoFloat | error propagation through decimal→binary→×100→decimal, all in exact integer arithmetic |
| C83 | The progress bar is proportional | proved | DrawModel + GoFloat | error bound of the float quotient and product, monotonicity of rounding; last write per cell |
| C84 | No text breaks the frames | proved | DrawModel | draw order: the boxes and labels are the last writes in their rows |
| C85 | Title, artist and album are shown as they are | partial | DrawModel (UTF-8 decoding of range over a string) | decoding inverts encoding; offsets strictly increase |
| C86 | Volume and time are always visible | partial | DrawModel | the lines are ASCII; disjoint columns if there is room |
| C87 | Lyrics appear line by line above the info box | proved | DrawModel + InfoerModel | each lyric line is the only write in its row inside the frame |
| C88 | Every player plays the stream the server made | proved | E2EModel (composition of Playlist, Chan, Schedule, Wire, Queue, Player, Pcm) | composition of C13, C20, C24, C29 and the queue invariants; sample numbers carried through chunking |
| C89 | The music port gives no control | proved | LifeModel + ServerModel + SenderModel | induction over message sequences |
| C90 | The server streams with every accepted configuration | partial | LifeModel | integer arithmetic with int64 wrap-around; exact characterisation |
| C91 | Clients may come while the server starts | partial | LifeModel | induction over interleavings of start-up steps and messages, exact crash condition; the order of the steps by induction over the same interleavings |
| C92 | Clients are accepted as long as the server runs | partial | LifeModel | induction over Accept results |
| C93 | A client that cannot work says so and leaves | partial | LifeModel | induction over interleavings of the client's goroutines |
| C94 | Time synchronisation follows its settings | partial | LifeModel | induction over a round; flags of each program case by case |
| C95 | A starting player takes over volume and stream | partial | LifeModel | induction over interleavings of Init and messages |
| C96 | Songs play at their recorded speed | partial | LifeModel + ScheduleModel | schedule arithmetic; universal counterexample by bounding both quotients; which samples: a corollary of the theorem about the streaming loop (C130) with the decoder of LifeModel |
| C97 | No error of a broadcast is lost | partial | LifeModel | inductive permutation invariant of the collector; induction over the error list |
| C98 | Wildcards queue exactly the matching songs | proved | FilesModel + CommandsModel + GlobSpec | parser of patterns inverted for every way of writing; matcher equals the declarative relation; induction over pattern elements from the right |
| C99 | The synchronised clock is the server's clock | proved | SyncModel (LifeModel + E2EModel + TimingModel + PlayerModel) | invariant over every schedule: all collected measurements and every computed mean are near the true distance; combined with C27 and C23 |
| C100 | The info display tells the truth about the stream | partial | PlaylistModel (StreamLoop), ScheduleModel, InfoerModel (client_run); spec ViewSpec (with_silence, while_playing, heard_songs, shows_the_truth) | ViewTold: invariant of the streaming loop that every trace announces truly (inductive [told]); ViewProofs: induction over the events of a song relates announced pauses to song samples; composed with C52 and the schedule arithmetic of C24 |
| C101 | Number arguments are read as written | proved | GoFmt.atoi (strconv.Atoi), CommandsModel jump_exec, remove_exec; spec NumberSpec.reads | induction over the digits (text_uint against the base-10 value), then case analysis of the two commands |
| C102 | Pause silences the stream, resume takes it up where it stopped | proved | PlaylistModel's streaming loop (pstep/prun) and PlayerModel's play; PauseProps.v | invariants of the loop: paused ⇒ only NaN blocks; in one song `out ++ remaining = song` while playing, `remaining` unchanged while paused; player part from C20's position map |
| C103 | The wire format is standard protobuf | proved | WireModel (decode loop, skip_value, field decoders, read_wire, to_wire) against ProtoSpec.v: records, their bytes, their meaning under packages.proto | decoder = fold over the record (induction over the record's derivation, groups by mutual induction); inversion of the decoder to records; fold = last-value/append/merge meaning by induction from the right; frames via the exact reader characterisation of C31 |
| C104 | The volume command reads floating-point numbers as written | proved | FloatTextModel: ParseFloat's scanner (sign, base prefix, mantissa loop, exponent with its limit, underscoreOK, special words) and the rounding of GoFloat; composed with volume_exec of CommandsModel. FloatTextSpec: an inductive grammar of numerals with their values, nearest-even as a property of the result, independent of the scanner. | Grammar => scanner by induction over digits; scanner => grammar by decomposing the scan into loose digit runs and showing that the underscore check makes them tight. rnd is nearest-even among all representable values; >= 2^1024 iff at least the midpoint. Limit on exponents irrelevant below 2000 characters (huge or zero either way). |
| C105 | Lyrics files are read as written, all or nothing | proved | JsonModel: the value grammar (white space, numbers, strings with escapes, surrogates and bytes that are not UTF-8), the storing of members by case-folded name, CollectLyrics. JsonSpec: the RFC 8259 grammar as inductive relations between texts and values, what a value denotes as lyrics. | Parser complete by mutual induction over the grammar, sound by induction over the fuel; members by induction from the right; composed with C56 (announcements). |
| C106 | The users file decides who may log in | proved | JsonModel.read_users with base64 (StdEncoding); JsonSpec.users_denote, RFC 4648 as a relation; composed with AuthModel. | as C105; groups of four characters by arithmetic; logins through C60 |
| C107 | The command line decides the settings | partial | CliModel: the flag tables of cmd/flags.go, package flag's parser, urfave/cli's registration of forms, normalisation (copying a value to the other forms), help, version and completion, the run functions; net.SplitHostPort. CliSpec: option tables, command lines as an inductive relation, settings as a function of the option values. | Parser sound and complete against the relation by induction over the arguments; the flag set as a table of values whose shape is an invariant; tables of model and specification compared by computation. |
| C108 | Numbers and durations on the command line | partial | CliModel: ParseInt/ParseUint with base 0, time.ParseDuration including its floating-point fraction (GoFloat), Duration.String. CliSpec: notations as inductive relations, values as exact rationals n/10^k*u. | Digits by induction; the fraction by error bounds over the scale 10^k (computed up to 40 digits, monotone beyond); round trip through the exactness theorem. |
| C109 | A player hands over every chunk once, whole and in order, under every schedule | proved | HandoverModel: goroutines as program counters, RWMutex with turns, slice reads and writes as separate steps (playback.go:50-62, streamer.go:81-97) | inductive invariant over all interleavings (who has the turn, stale copies are current, history = handed over ++ waiting); a Permutation conserved by every step; a decreasing measure and a progress lemma |
| C110 | Several control sessions can edit the playlist at the same time | partial | SessionsModel: goroutines as program counters inside AddSong, InsertSong, RemoveSong, Songs, nextSong and SetPos, statement by statement, with the RWMutex (playlist.go:63-72, 140-211) | linearisation in the order of returning (`one_by_one` over the plain-list edits of C03): inductive invariant; a critical section that reaches its end has computed the atomic edit; rank function for termination; witnesses for the two refuted parts |
| C111 | The log tells who tried to get in and who is connected | partial | AuditModel: the two authentication handlers with their log lines inside the loop of x/crypto/ssh (public-key cache, queries, bad signatures) and gliderlabs' fixed ctx.User(); the session's lines (options.go:29-59, session_handler.go:20-140) | induction over the requests with an invariant on the key cache; injectivity of the log format; witnesses for the refuted parts |
| C112 | The volume typed is the volume heard | proved | HeardModel (handlers' effects on the player's variables), FloatTextModel, WireModel, PcmModel | composition of C104, C30, C95, C25 and C81 with an error analysis of the stored volume (nearest float) over exact integers |
| C113 | The info screen follows the terminal and gives it back | partial | ScreenModel: main and event goroutine step by step; drawing as a program tree with every read of d.w and d.h (main.go:91-164, drawing.go:14-29) | invariants over all interleavings: size right when no resize is pending; cells drawn plus cells to come = the screen for the size; measures for the end; witnesses |
| C114 | The generated parser reads every line as the grammar file says | proved | GrammarModel: both ATN tables as lists of words, the deserializer, walks through a table with call stacks, longest-match lexer, Sync, adaptive prediction (local and full context), the rule functions of shell_parser.go. GrammarSpec: Shell.g4 as inductive relations on texts | generic lemmas about closed sets of configurations; the closures in the tables by vm_compute; induction over lines; uniqueness of the reading |
| C115 | The messages compiled into the program are those of packages.proto | proved | DescrModel: fileDescriptor0 byte by byte, gunzip (RFC 1952) and inflate (RFC 1951), FileDescriptorProto, Go structs with tags and Descriptor paths, choice of coders, generic marshal/unmarshal on struct values. DescrSpec: packages.proto line by line | the descriptor by vm_compute (kernel); generic coding = the coding of WireModel by simulation of the decode loop and induction over messages; composed with C103 |
| C116 | What a process keeps does not grow with the time it has been running | partial | the connection and subscription tables (SenderModel), the info client's lists (InfoerModel, client_run) and the server's pauses (ServerModel, sequential lives); RetainSpec says what a regular chunk schedule and alternating pauses are | induction over histories and executions: connections = the open ones; chunks kept are a sorted part of those received, bounded by the time ahead; at most two toggles before the song survive pruning; refuted for subscriptions (for every n a history with nobody connected and n entries) and for songs |
| C117 | Compressed bodies: every standard one is read, a damaged one is not taken for a message | partial | the reader of compress/zlib and compress/flate as package_util.go:75-77 uses it, with both errors dropped and what was decoded before an error kept (ZlibModel); RFC 1950/1951 from the writer's side: canonical codes, copies, run-length coded code lengths, the three kinds of blocks, Adler-32 (ZlibSpec) | canonical Huffman decoding inverts the code assignment for every usable code; induction over tokens, runs and blocks; for cuts a simulation between reading a part of the bits and all of them; streams of stored blocks for the counterexamples; a stream written by zlib itself as example |
| C118 | Reading a frame takes memory in proportion to the bytes received for it | partial | `CostModel`: the sizes of the buffers readWire and readBytes make for one frame, with the zlib reader of C117 | The reader consumes at least one bit for every 129 bytes it produces (induction over each loop); the envelope's body is no longer than the envelope; a stream of copies of length 258 reaches the factor; eight bytes are a counterexample while a frame has not arrived |
| C119 | A server that cannot work says so and leaves | partial | `StartModel`: run of the server with the results of os.Stat, reading files, net.Listen and key parsing left open; StartSSH with options that may fail | Case analysis over the start sequence, with the theorems about users files (C106) and logins (C60); counterexamples for every configuration with an unusable host key file or an address in use; the log lines against a specification of what has to be said |
| C120 | The clients work with every setting they accept | partial | `SettingsModel`: Info, the drawing and the player's initialisation with the places where Go panics (division by zero, make) | The versions with panics equal those of InfoerModel and DrawModel for all settings but the excluded ones, for which they panic; case analysis and arithmetic for the player |
| C121 | The shell's answers are plain text | partial | the output of read_loop (CommandsModel, ParserModel), over all sessions, registries and environments returning plain texts; ShellTextSpec says what a control character and tame output are | every command maps plain arguments and a plain state to plain lines and a plain state; induction over the session; refutations by computing the last byte of a character and following a name through `playlist` and `ls` |
| C122 | Playing songs does not use up the files a process may have open | partial | OpenFilesModel: open files of the process (limit, files referred to, files dropped, connections) over the loop of PlaylistModel, getStreamer, the two providers, the acceptor; the garbage collector as an action that may close dropped files at any time | refinement to PlaylistModel under an invariant (held <= 1, held+lost <= 1 + opens since the last complete collection); accounting of opens by induction; universal counterexamples |
| C123 | The playlist's list of songs is its own | partial | SliceModel: heap of arrays, slices with offset, length and capacity, append with arbitrary growth, copy as memmove; the playlist's methods on it; holders of slices who store, append and cut | refinement of each operation to the list operation, frame conditions (which array is touched), invariant: slices of different owners never share an array with room; universal counterexamples |
| C124 | StreamLoop runs until its context is cancelled, and then ends | partial | CancelModel: the test of line 42 and a cancel action around the loop of PlaylistModel | simulation with PlaylistModel in both directions; counting of songs left; decreasing measure (steps to go) while playing; invariant of the paused loop |
| C125 | A control session works while the server is still registering its commands | partial | RegistryModel: the slice of commands with its arrays, registrations as single stores (append, swaps of an arbitrary sorting procedure), lookups and listings as single copies of halves of an element. | Invariant: between registrations the view is an ordered permutation of the registered commands, inside a swap it is a known stage of one; every cell a reader may copy holds halves of registered commands. Refutations: constructed schedules for every state whose next command sorts before the last one (insertion sort's first swap). |
| C126 | A jump takes effect whenever it comes | partial | PositionModel: the loop of PlaylistModel with reading and writing back the position as two steps, other goroutines in between | simulation by PlaylistModel (the step taken at the reading, others commute with it), converse, and a run in which the written target is irrelevant |
| C127 | What is shown as the current song is a song | partial | HeaderModel: PlaylistModel with currentSong as two words (address, length), the stores of playlist.go:48 and the loads of line 238 as single steps | invariant over all schedules (each word is of a song that was current; both of the same when no store is outstanding); schedules for every reachable state for the mixture |
| C128 | Everybody ends up with the volume set last | partial | SetVolumeModel: volume command, broadcast (read lock, one write per client in any order, each may fail) and the volume sent to a new client, every access of the unprotected field and every write a step of its own | invariant over undisturbed schedules (quiet, or one command or some subscriptions under way); invariant over all schedules for "only typed volumes"; schedules from every reachable state with idle sessions for the violations, completed by an induction over the clients left |
| C129 | The sample queue serves any number of goroutines | partial | CrowdModel: the queue with any number of goroutines, headMutex and tailMutex as RWMutexes (announce, drain, reader lists), cond.L, the notify list; one step per lock operation, check and memory access | invariant tying lock owners to places, the buffer to a FIFO and the places to a history with effect points (linearizability); second invariant on sleepers and contents for deadlock freedom; the Len deadlock from a filled queue of any size with an invariant of all continuations |
| C130 | The stream is the songs of the playlist, one after the other | proved | PlaylistModel (the loop of playlist.go step by step with pauses, jumps and edits between the steps), for the last clause E2EModel (C88) | Invariant over runs: the audible part of the stream is the concatenation of whole (or, after jumps, begun) announced songs plus a beginning of the current one; with C04 the announced names are a stretch of the cyclic order, hence the stream a prefix of the programme; a run through k places is built by induction; the player's side composes with C88_in_order_gapless (increasing positions give a subsequence). |
| C131 | Every song of the playlist gets its turn | proved | PlaylistModel, from every reachable state of the loop | The rest of the current song is finished by induction on its samples, then one place of the playlist after the other (position counted modulo the length) until the song's place; uniqueness of the loop's next step makes every long enough run contain that one |
| C132 | Pause, resume and jump are heard soon | proved | LatencyModel: PlaylistModel's loop whose pushes go sample by sample through ChanModel's channels, with Fill and the controls in between | Simulation: the run projects to a run of the loop and one of the channels, with history ++ samples left to push = stream (invariant); counting what is in the channels gives the settled part; C102, C06, C130 give what follows it; the converse by letting each push through at once |
| C133 | How many seconds a pause and a resume take | proved | `ClockModel`: streamMusic with its ticker (one-place channel, ticks dropped) and a clock, around the loop and channels of `LatencyModel` | Invariant: chunks begun + waiting tick + lost ticks = ticks fired <= elapsed periods; with the settled part of C132 and the arithmetic of due times |
| C134 | Chunks are sent before they are due | partial | `ClockModel`, the time at which each chunk is made | The same invariant at each return of Fill; lost ticks only grow, so the bound holds for the rest of every run |

## Trusted base

* Coq 8.16.1's kernel (with its VM, used by `vm_compute` in examples) and the standard library.
* `Print Assumptions` prints "Closed under the global context" for **every** `Cnn_...` theorem: no axiom
  of the standard library or any other is used. (The check of all loaded modules lists seven fields of the
  module type `Coq.ssr.ssrunder.Under_rel`, part of the standard distribution's ssreflect support loaded by
  the prelude; no theorem depends on them.)
* No functors, module types, `Admitted`, `Axiom`, section-less `Variable`/`Hypothesis`, no kernel switches.
* The reading of Go and of the code in the `*Model.v` files (by hand, line by line).

### External code: what is assumed

| External | Assumption (where) |
|---|---|
| Go runtime | a panic in any goroutine ends the process; channels are FIFO with capacity; `sync.Mutex`, `RWMutex`, `Cond` as documented; an *os.File nothing refers to is closed by the garbage collector at an unspecified time (OpenFilesModel); slices as in the language specification, `append` growing by an arbitrary amount (SliceModel, RegistryModel); `sort.Sort` only swaps and sorts (RegistryModel), as insertion sort for up to twelve elements (only in C125's refutations); memory is sequentially consistent at the granularity of the modelled steps (QueueModel, TimingModel) |
| compress/zlib | reader: written out after Go's inflate.go and zlib/reader.go and proved to read every RFC 1950 stream (ZlibModel, C117); writer: an arbitrary function whose output is a zlib stream of its input (C117) - in the older wire theorems an arbitrary pair with `inflate (deflate d) = d` on bytes, producing bytes (WireModel, record `wire_env`), which C117 shows to be met |
| golang/protobuf v1.4.2 | its documented proto3 wire behaviour for the message types of packages.proto, written out as encoder/decoder (WireModel); which coder belongs to which field is derived from the compiled descriptor and the struct tags (DescrModel, C115) |
| net.Conn | a byte stream cut into arbitrary reads; `Write` is atomic against other writers and writes everything or fails for good (C32) |
| faiface/beep | `Streamer.Stream` returns n < len only at the end; `SampleRate.D/N` as integer formulas (PlayerModel) |
| ANTLR runtime 4.8 | the format of the tables, longest match and first rule in the lexer, Sync, adaptive prediction resolving to the smallest alternative left, written out over the tables (GrammarModel); ParserModel's results are proved to be what these give (C114) |
| chzyer/readline | on Ctrl-C returns the line typed so far together with ErrInterrupt (CommandsModel) |
| strconv, fmt | `Atoi`, `%d`, `%0nd` written out (GoFmt); `ParseFloat` and `%.3f` are arbitrary functions in CommandsModel; in VolumeModel correctly rounded for plain decimals, other input forms arbitrary; FloatTextModel is the whole of `ParseFloat` (signs, hexadecimal, underscores, exponents with their limit, inf, nan), with the conversion itself taken to be correctly rounded |
| encoding/json, encoding/base64 | of Go 1.14, written out as a parser and a storer (JsonModel) for the two types the program decodes; a null inside a pubKey array counts as 0 |
| urfave/cli v1.22.4, packages flag, strconv, time, net (SplitHostPort) | of Go 1.14, written out (CliModel); the only stored environment is the command line |
| gdamore/tcell | SetContent stores one rune in one cell and ignores cells outside of the screen (DrawModel); Clear blanks all cells; a size change keeps the cells inside and queues one EventResize (unbounded queue); Show puts the cells on the terminal, Fini gives it back (ScreenModel) |
| path/filepath | `Clean`, `Join`, `Rel`, `Walk`, `Match`, `Glob` on Unix written out for valid UTF-8 names (FilesModel) |
| gliderlabs/ssh, x/crypto/ssh | `ctx.User()` is fixed when the first handler runs; the signature of an offered key is checked (AuthModel); answers for keys are cached per user name and key, at most 16 (AuditModel) |
| unicode.ToLower | arbitrary above ASCII (LoggingModel) |
| amd64 float→int | int32 conversion then truncation to 16 bits (PcmModel) |

### Parts of the code modelled, by file

| File | Modelled | Not modelled |
|---|---|---|
| playback/playlist.go | everything: song list, position, jumps, streaming loop, channels, Fill | log output |
| playback/timed_sample_queue.go | everything, at lock/step granularity | – |
| playback/streamer.go | everything except unused copySamples/drained | – |
| playback/playback.go | QueueChunk, CombineSamples, conversion to PCM, song file name and decoder choice | oto player, mp3 decoder |
| timing/timing.go | everything | monotime clock source |
| schedule/server_state.go | handlers, announcements, pruning, streamMusic | – |
| schedule/server_state_commands.go | all commands and completions | – |
| schedule/{server,player,infoer,schedule}.go | start-up order against client messages, client processes, time synchronisation rounds | log output |
| comm/package_util.go, package_handler.go, message_sender.go, conn_handler.go | framing, codec, zlib reader, sizes of the buffers, dispatch, broadcast, subscription | TLS/TCP internals |
| comm/packages.pb.go | message layouts, compressed descriptor, struct tags, registered names | String, Reset, getters on nil |
| ssh/command.go, session_handler.go, auto_completer.go, options.go, ssh.go | registry (also while it is being filled), session loop, completion, authentication, users file (JSON, base 64) | PTY, terminal escape codes, key exchange |
| ssh/parser | lexer, grammar, generated parser with its tables, listener, Unparse | caches and error recovery of the ANTLR runtime |
| metadata/* | file names, association with the song, lyrics files (JSON), files left open | reading of ID3 and other tags |
| logging/* | everything | timestamp text, colour escape handling of the terminal |
| cmd/flags.go, params.go, */main.go | everything the command line decides, start and end of the processes | help texts, what completion prints |
| cmd/music-sync-infoer | state, handlers, lyrics, durations, volume line, drawing (cells), screen and event loop | tcell below SetContent (wide and combining runes, styles) |
| util/* | collector, file utilities, names | – |

## Defects found in /repo while proving

1. `RemoveSong(len)` panics (C02). 2. `jump -1` and most negative targets crash the server later, in the
streaming goroutine (C05, C72). 3. Two quick jumps restart the target; a jump racing with the song end lands
one too far; a jump while nothing streams breaks the next song (C06). 4. The third jump on an empty playlist
hangs the control session (C07). 5. Removing an earlier song makes playback skip (C08). 6. Pause announcements
can stay wrong after a race (C11). 7. Lost wake-up in the sample queue; deadlock with capacity 1 (C17).
8. Chunks handled out of order make playback jump back (C19). 9. The first buffer of every song is dropped
(C22). 10. Full-scale +1.0 becomes −32768 (C25). 11. Division by zero in timing (C28). 12. A negative length
prefix or corrupt zlib payload from any client kills the process (C31). 13. Volumes may be applied in the
wrong order (C36). 14. Overlapping prunings lose pauses or crash the server (C39). 15. `queue p -k` reverses
songs (C40). 16. A rejected `volume` sets the server volume to 0 (C41). 17. Ctrl-C executes the line (C43).
18. Characters from U+00C0 on are corrupted by the command parser (C45). 19. `Unparse` does not round-trip
(C46). 20. TAB after extra blanks crashes the server (C48). 21. Out-of-order chunk info makes the info client
drop a pause it needs (C52). 22. No progress for a song at stream index 0 (C54). 23. A song with a non-UTF-8
tag is never announced (C56). 24. Per-package logging flags have no effect (C59). 25. File names wrong for
`./audio`, `ls ..`, hidden files (C61). 26. CurrentSong stays set (C63). 27. A client that stops reading
freezes the service (C64). 28. Negative positions count as paused (C65). 29. Races between announcement
goroutines (C66, C67, C68, C70). 30. A new info client shows nothing until the newest song starts (C69).
31. An unreadable entry ends `ls` silently (C76). 32. Names with pattern characters are offered but not
queued (C77). 33. The info client counts columns in bytes: text with non-ASCII characters is torn apart (C85).
34. Long titles overwrite the volume, long artist lines the time (C86). 35. Some chunk sizes and sample rates make the server panic at
start or never stream (C90). 36. A client subscribing during the start kills the server (C91). 37. One failed
Accept and no client is ever accepted again (C92). 38. The info client crashes if the server is unreachable
(C93). 39. The time synchronisation flags have no effect (C94). 40. A player's initialisation overwrites the
received volume (C95). 41. The sample rate of songs is ignored (C96). 42. A broadcast error says "%d" (C97).
43. Command lines: arguments after a non-option are ignored, README names an option that does not exist, IPv6
hosts need brackets (C107); leading zeros mean base eight (C108). 44. A jump while the streaming loop fetches
the next song is overwritten; songs of one `queue` can be separated by another session's (C110).
45. A user name containing a line break writes its own lines into the log; attempts for several names are logged
under the first; a refused signature is not logged (C111). 46. The info
client leaves the terminal in raw mode when it ends because of the connection or an unexpected event (C113). 47. The server never forgets the subscriptions
of clients that are gone, and stores repeated subscriptions of one client again and again; 48. the info client never
forgets a song (C116). 49. The errors of the zlib reader are dropped: a body with a wrong or missing check sum, or cut short, is
handled as the message its readable part gives (C117). 50. Eight bytes from any client
make the process reserve up to 2^48 bytes before anything else has arrived (C118). 51. With a host key
file that holds no key, or a control address in use, the server runs without a control shell (C119). 52. The info
client crashes with `--sample-rate 0` or a history size of 2^63-7 to 2^63-1, the player with a sample rate
of 0 or less; with one from 1 to 9 it plays nothing (C120). 53. Characters typed into the shell come back as C1 control characters, and control
characters in song names are printed raw (C121). 54. No song, lyrics or tag file is ever closed by the program; until the garbage
collector finds them they count against the limit of open files, one undecodable file in the playlist uses the limit up at once,
and the Accept failing then is the last (C122). 55. NewPlaylist keeps the slice it is given: a caller
that goes on using it shares its array with the playlist (C123). 56. StreamLoop cancelled while paused never returns (C124).
57. While the server registers its commands, a session can run another command than the one typed, or be told a
registered command is unknown (C125).
58. A jump made while the loop is between reading the position and writing it back returns and is forgotten;
the chosen song is broken off after one block and started again (C126).
59. CurrentSong reads a two-word string without a lock while the loop writes it: the name shown can be one song's bytes
with another's length; before the first song that is a nil dereference, which ends the server (C127).
60. Two sessions setting the volume at once leave clients at different volumes for good; a client subscribing
meanwhile keeps the old one; a typo in one session can mute the clients for another session's command (C128).
61. timedSampleQueue.Len deadlocks a full queue: Add waiting for space keeps headMutex, Len waits for headMutex and keeps
tailMutex, Remove waits for tailMutex (C129; Len is called only by tests here).
62. The completer cuts command names at a byte position that counts characters: a name beginning with a character outside ASCII is
completed with U+FFFD (C47; the commands of the server have ASCII names).
63. The start times of chunks count chunks, not time: a tick that is dropped because Fill takes too long puts the stream one chunk nearer to its due
times for good; when the stream delay is used up every chunk comes late. A stream delay of one chunk or less is accepted and does so at once (C134).
