{"id": "C01", "title": "Mutex token bucket: total grants since creation are bounded", "statement": "With a clock that never goes backwards and a non-negative capacity and rate, the number of Acquire calls on a token bucket from NewSyncTokenBucket that return true between creation at time t0 and time t is at most capacity + rate * (whole seconds in t - t0).", "quantifier": "every capacity >= 0, rate >= 0, every finite history of Acquire calls at every non-decreasing sequence of clock readings (no int64 overflow)", "why_tests_cant": "A test samples a few call patterns; the bound is over all histories and all clock readings.", "anchors": ["ratelimiter/tokenbucket.go:SyncTokenBucket.Acquire", "ratelimiter/tokenbucket.go:SyncTokenBucket.issueIfNecessary", "ratelimiter/tokenbucket.go:NewSyncTokenBucket"]}
{"id": "C02", "title": "Mutex token bucket: grants in every time span are bounded", "statement": "In any stretch of a history that starts at a call at time a and ends at a call at time b, at most capacity + rate * (whole seconds in b - a, plus one) calls return true. (The sharper bound without the extra 'plus one' second does not hold: an idle full bucket can hand out capacity + 1 permits in zero time.)", "quantifier": "every history prefix and every following stretch of Acquire calls with non-decreasing clock readings", "why_tests_cant": "The worst burst depends on when the last refill happened, i.e. on the whole preceding history.", "anchors": ["ratelimiter/tokenbucket.go:SyncTokenBucket.Acquire", "ratelimiter/tokenbucket.go:SyncTokenBucket.issueIfNecessary"]}
{"id": "C03", "title": "Token bucket: a caller that waits is served", "statement": "With capacity >= 1 and rate >= 1 and a clock that never goes backwards, an Acquire made at least one second after every earlier Acquire (and after creation) returns true. More generally, a new bucket serves its first `capacity` calls at once, and after s whole seconds without a call a burst of up to min(capacity, rate * s) calls is served completely. With a clock that steps backwards this is false.", "quantifier": "every history of calls, every later call at least one second after the last one", "why_tests_cant": "Starvation would only show after particular histories (fractional seconds are discarded on refill).", "anchors": ["ratelimiter/tokenbucket.go:SyncTokenBucket.Acquire", "ratelimiter/tokenbucket.go:SyncTokenBucket.issueIfNecessary"]}
{"id": "C04", "title": "The two token buckets agree when used by one goroutine", "statement": "Fed the same capacity, rate, creation time and clock readings by a single goroutine, the buckets from NewSyncTokenBucket and NewAtomicTokenBucket return the same sequence of results.", "quantifier": "every capacity, rate and clock reading sequence (including clocks going backwards and int64 wrap-around), every number of calls", "why_tests_cant": "Equality of two implementations on all histories.", "anchors": ["ratelimiter/tokenbucket.go:SyncTokenBucket.Acquire", "ratelimiter/tokenbucket.go:AtomicTokenBucket.Acquire", "ratelimiter/tokenbucket.go:AtomicTokenBucket.issueIfNecessary"]}
{"id": "C05", "title": "Atomic token bucket: when the mutex bucket's bound survives concurrency", "statement": "For every interleaving of concurrent Acquire calls on a bucket from NewAtomicTokenBucket after which no call is in progress, the number of calls that have returned true by time t is at most capacity + rate * (whole seconds since creation), provided no refill had to be withdrawn (because another goroutine refilled meanwhile). Without that proviso the bound is false: four goroutines can get three permits in one second out of a bucket with capacity 1 and rate 1.", "quantifier": "every number of goroutines, every interleaving of their atomic operations, every non-decreasing clock", "why_tests_cant": "The compare-and-swap window that breaks it needs a particular interleaving of several goroutines; tests and the race detector do not hit it.", "anchors": ["ratelimiter/tokenbucket.go:AtomicTokenBucket.Acquire", "ratelimiter/tokenbucket.go:AtomicTokenBucket.issueIfNecessary"]}
{"id": "C06", "title": "Atomic token bucket: the excess is exactly the rolled-back refills, and the store never exceeds capacity", "statement": "For every interleaving, permits granted never exceed capacity + rate * (whole seconds since creation) + the sum of refills that were applied and then withdrawn because another goroutine had refilled meanwhile (plus those still in flight); and the number of permits immediately available never exceeds capacity.", "quantifier": "every number of goroutines, every interleaving, every non-decreasing clock", "why_tests_cant": "Invariant over all interleavings.", "anchors": ["ratelimiter/tokenbucket.go:AtomicTokenBucket.Acquire", "ratelimiter/tokenbucket.go:AtomicTokenBucket.issueIfNecessary"]}
{"id": "C07", "title": "Fixed window: at most capacity grants per aligned window", "statement": "With window size W > 0, calls arriving in clock order, each less than 2^53 ns (104 days) after the one before (the first: after the limiter's window edge), at most `capacity` calls with timestamps in any one window (edge + (k-1)W, edge + kW] return true. If calls reach the limiter out of clock order this is false.", "quantifier": "every capacity, every W > 0, every non-decreasing sequence of call times, every k", "why_tests_cant": "The window advance goes through float64 division and math.Ceil; correctness for all operands is a rounding argument.", "anchors": ["ratelimiter/fixedwindow.go:SyncFixedWindow.Acquire", "ratelimiter/fixedwindow.go:SyncFixedWindow.reset"]}
{"id": "C08", "title": "Fixed window: no spurious refusals", "statement": "Under the conditions of C07 a call is refused only if `capacity` calls in its own window have already been granted; with capacity >= 1 the first call in every window is granted.", "quantifier": "every history of non-decreasing call times, every capacity and W > 0", "why_tests_cant": "Full decision equivalence over all histories.", "anchors": ["ratelimiter/fixedwindow.go:SyncFixedWindow.Acquire", "ratelimiter/fixedwindow.go:SyncFixedWindow.reset"]}
{"id": "C09", "title": "Fixed window: a brand-new limiter", "statement": "The first Acquire on a limiter from NewSyncFixedWindow, at time t, returns true iff capacity > 0 and opens a window whose edge lies in [t - 2^11 ns, t + W + 2^11 ns); from then on the limiter behaves exactly like the ideal fixed-window limiter with that edge. The edge need not cover t itself (float64 rounding at present-day clock values): a new limiter with capacity 1 can grant two calls made at the same nanosecond.", "quantifier": "every clock reading below 2^61 ns since 1970, every window size below 2^60 ns, every later ordered history", "why_tests_cant": "Depends on IEEE rounding of particular 61-bit integers; tests use small literal timestamps.", "anchors": ["ratelimiter/fixedwindow.go:SyncFixedWindow.reset", "ratelimiter/fixedwindow.go:NewSyncFixedWindow"]}
{"id": "C10", "title": "Fixed window: any span of one window length sees at most 2*capacity grants", "statement": "Under the conditions of C07, in any time span of length at most W at most 2 * capacity calls return true (the documented weakness of the fixed window is no worse than that); counting from construction, at most 2 * capacity + 1.", "quantifier": "every span [x, x+W) and every history of non-decreasing call times", "why_tests_cant": "Quantifies over all spans and histories.", "anchors": ["ratelimiter/fixedwindow.go:SyncFixedWindow.Acquire", "ratelimiter/fixedwindow.go:FixedWindow"]}
{"id": "C11", "title": "Sliding window: never more than capacity grants in any window, whatever the call order", "statement": "From construction (or from the last UpdateConfig) with capacity c > 0 and window W >= 0, every closed time interval of length W contains the timestamps of at most c granted calls - even when concurrent callers reach the limiter out of clock order.", "quantifier": "every history of Acquire calls with arbitrary timestamps in arbitrary order, every interval of length W", "why_tests_cant": "Out-of-order arrival only happens under particular thread schedules; the bound is over all of them.", "anchors": ["ratelimiter/slidingwindow.go:SyncSlidingWindow.Acquire", "ratelimiter/slidingwindow.go:NewSyncSlidingWindow"]}
{"id": "C12", "title": "Sliding window: the decision is exactly 'fewer than capacity grants in the last W'", "statement": "For calls in clock order a call at time now is granted if and only if fewer than c calls with timestamps in [now - W, now] have been granted since construction.", "quantifier": "every non-decreasing history, every c > 0, every W >= 0", "why_tests_cant": "Full functional equivalence with a specification that remembers every grant.", "anchors": ["ratelimiter/slidingwindow.go:SyncSlidingWindow.Acquire"]}
{"id": "C13", "title": "Sliding window: reconfiguration", "statement": "UpdateConfig takes effect immediately: Capacity and WindowSize return the new values (negative capacities become 0; the same for a new window), capacity 0 never refuses, and for every later call history the bound of C11 holds with the new values; lowering and then restoring the capacity forgets earlier grants, so the bound with the restored capacity does not hold across the two reconfigurations.", "quantifier": "every sequence of Acquire and UpdateConfig calls", "why_tests_cant": "Interaction of reconfiguration with every earlier history.", "anchors": ["ratelimiter/slidingwindow.go:SyncSlidingWindow.UpdateConfig", "ratelimiter/slidingwindow.go:SyncSlidingWindow.Capacity", "ratelimiter/slidingwindow.go:SyncSlidingWindow.WindowSize"]}
{"id": "C14", "title": "Redis limiter: once triggered, blocking lasts for the timeout and carries the first message", "statement": "After ShouldBlock2(k, b, m) reports a triggered block, every ShouldBlock2 with block key b and every IsBlocked(b) during the following `timeout` seconds reports blocked, not triggered, with message m and the rounded time left; after `timeout` seconds b is no longer blocked. (The first part survives lost replies and other callers; the exact correspondence is for histories in which no reply was lost.)", "quantifier": "every earlier history, every later history of calls (any keys, any messages) inside and after the timeout", "why_tests_cant": "Needs all interleavings of requests and all Redis clock values.", "anchors": ["ratelimiter/ttl_ratelimiter_redis.go:script1", "ratelimiter/ttl_ratelimiter_redis.go:script2", "ratelimiter/ttl_ratelimiter_redis.go:ShouldBlock2Context", "ratelimiter/ttl_ratelimiter_redis.go:IsBlockedContext"]}
{"id": "C15", "title": "Redis limiter: at most capacity passes per key and window", "statement": "With constant parameters, windowSize + 2*skew <= 2*timeout (skew = largest difference between a caller's and Redis's clock) and no string used both as a counting and a blocking Redis key, at most `capacity` requests for one key pass in any span of `windowSize` seconds. For every parameter set with 2*timeout < windowSize it fails, because the stored history expires after 2*timeout seconds. With one non-decreasing clock and no lost replies, a block is triggered only if `capacity` requests for the key have passed in the last windowSize + 1 seconds.", "quantifier": "every request history of every key", "why_tests_cant": "The expiry interaction needs particular idle gaps in the history.", "anchors": ["ratelimiter/ttl_ratelimiter_redis.go:script1"]}
{"id": "C16", "title": "Redis limiter: results have one of the three documented shapes", "statement": "No call panics and every Result is (not blocked, not triggered, ttl 0, empty message) or (blocked, triggered, ttl > 0, message) or (blocked, not triggered, ttl >= 0, message). A ttl of 0 in the last shape is reported in the last half second of a block and never earlier.", "quantifier": "every history and every call", "why_tests_cant": "Only visible in a half-second slice of wall-clock time.", "anchors": ["ratelimiter/ttl_ratelimiter.go:Result", "ratelimiter/ttl_ratelimiter_redis.go:script1", "ratelimiter/ttl_ratelimiter_redis.go:script2"]}
{"id": "C17", "title": "Redis limiter: IsBlocked agrees with ShouldBlock2", "statement": "For limiters from NewRedisTtlRateLimiter, IsBlocked(b) reports blocked exactly when a ShouldBlock2(_, b, _) at the same moment would be refused because of an existing block on b, with the same ttl and message, and changes nothing. For limiters from NewRedisTtlRateLimiterCluster this fails: IsBlocked never sees a block that cluster limiters set.", "quantifier": "every history, every block key", "why_tests_cant": "Requires relating two operations after every history; the repository has no test of IsBlocked in cluster mode.", "anchors": ["ratelimiter/ttl_ratelimiter_redis.go:IsBlockedContext", "ratelimiter/ttl_ratelimiter_redis.go:ShouldBlock2Context", "ratelimiter/ttl_ratelimiter_redis.go:NewRedisTtlRateLimiterCluster"]}
{"id": "C18", "title": "Redis limiter: cluster keys land in one slot", "statement": "For a limiter from NewRedisTtlRateLimiterCluster with a non-empty hash tag, and keys that contain no '{', the two Redis keys touched by ShouldBlock2 have the same hash-slot tag, namely the configured one without its outer braces. With braces in the keys or an empty tag this fails.", "quantifier": "every hash tag, key and block key", "why_tests_cant": "Quantifies over all strings, including ones with stray braces.", "anchors": ["ratelimiter/ttl_ratelimiter_redis.go:NewRedisTtlRateLimiterCluster", "ratelimiter/ttl_ratelimiter_redis.go:ShouldBlock2Context"]}
{"id": "C19", "title": "Redis limiter: requests on one key do not disturb another", "statement": "Calls on (k1, b1) never change the outcome of later calls on (k2, b2) when k1 <> k2, b1 <> b2 and no block key is '_rl' or starts with '_rl:' (otherwise the two key namespaces overlap, e.g. key 'x:bl' and block key '_rl:x', and it fails). Unset parameters or an undelivered request mean 'pass' with no stored effect; a lost reply means 'pass' but may leave a block behind.", "quantifier": "every pair of calls and every store content", "why_tests_cant": "Collision needs adversarial key strings.", "anchors": ["ratelimiter/ttl_ratelimiter_redis.go:prefix", "ratelimiter/ttl_ratelimiter_redis.go:suffix", "ratelimiter/ttl_ratelimiter_redis.go:ShouldBlock2Context", "ratelimiter/ttl_ratelimiter.go:isParamsNotSet"]}
{"id": "C20", "title": "Circuit breaker: each Do runs exactly one branch", "statement": "Each Do calls either the task exactly once or onOpen exactly once, never both; onError is called exactly once, with the task's error, if and only if the task ran and returned an error.", "quantifier": "every breaker history and every task outcome", "why_tests_cant": "All states and outcomes.", "anchors": ["circuitbreaker/circuitbreaker.go:SyncCircuitBreaker.Do"]}
{"id": "C21", "title": "Circuit breaker: open means nothing runs", "statement": "If at the moment a Do consults the breaker the last `threshold` (or more) recorded outcomes were all failures and the latest failure was recorded no more than resetTimeout before the call's clock reading, the task is not run and onOpen is called - for every interleaving of concurrent Do calls. The stronger reading - once open, no task starts for resetTimeout - is false: a slow task that started earlier and now succeeds closes the breaker at once.", "quantifier": "every number of concurrent callers, every interleaving of consulting and recording, every clock reading", "why_tests_cant": "Needs all interleavings of slow tasks.", "anchors": ["circuitbreaker/circuitbreaker.go:SyncCircuitBreaker.Do", "circuitbreaker/circuitbreaker.go:SyncCircuitBreaker.state", "circuitbreaker/circuitbreaker.go:SyncCircuitBreaker.recordFailure", "circuitbreaker/circuitbreaker.go:SyncCircuitBreaker.reset"]}
{"id": "C22", "title": "Circuit breaker: closed and half-open let calls through", "statement": "If fewer than `threshold` failures were recorded since the last recorded success, or more than resetTimeout has passed since the latest failure, the task is run; from half-open a failure re-opens the breaker for a full resetTimeout and a success closes it. A threshold of zero or less acts like one. Half-open is not limited to one trial call.", "quantifier": "every interleaving, every clock reading", "why_tests_cant": "Full decision equivalence over all histories.", "anchors": ["circuitbreaker/circuitbreaker.go:SyncCircuitBreaker.state"]}
{"id": "C23", "title": "Circuit breaker: behaves like the documented three-state machine", "statement": "For sequential use with threshold >= 1 the observable behaviour equals that of a three-state machine (closed with a consecutive-failure count, open until an instant, half-open).", "quantifier": "every finite sequence of Do calls with arbitrary clock readings and outcomes", "why_tests_cant": "Refinement over all sequences.", "anchors": ["circuitbreaker/circuitbreaker.go:SyncCircuitBreaker", "circuitbreaker/circuitbreaker.go:Interface"]}
{"id": "C24", "title": "NeverOpen always runs the task", "statement": "NeverOpen.Do runs the task exactly once and never calls onOpen, and onError exactly once iff the task fails.", "quantifier": "every sequence of calls", "why_tests_cant": "All sequences.", "anchors": ["circuitbreaker/circuitbreaker.go:neverOpen.Do"]}
{"id": "C25", "title": "Semaphores: never more holders than permits", "statement": "For both semaphores, if Release is only called by holders, then at every moment of every interleaving at most `permits` acquisitions are outstanding.", "quantifier": "every number of goroutines, programs of Acquire/TryAcquire/Release, every interleaving", "why_tests_cant": "All interleavings including blocked and woken waiters.", "anchors": ["concurrent/sema.go:ChanSemaphore", "concurrent/sema.go:LockSemaphore"]}
{"id": "C26", "title": "Semaphores: over-release adds no permits", "statement": "Release on a semaphore with no outstanding permit changes nothing; after any history no more than `permits` acquisitions can succeed without an intervening Release.", "quantifier": "every history with any number of surplus Release calls", "why_tests_cant": "All histories.", "anchors": ["concurrent/sema.go:ChanSemaphore.Release", "concurrent/sema.go:LockSemaphore.Release"]}
{"id": "C27", "title": "Semaphores: TryAcquire is exact and never blocks", "statement": "TryAcquire always completes and returns true iff a permit is available at that moment.", "quantifier": "every reachable state of every interleaving", "why_tests_cant": "All reachable states.", "anchors": ["concurrent/sema.go:ChanSemaphore.TryAcquire", "concurrent/sema.go:LockSemaphore.TryAcquire"]}
{"id": "C28", "title": "Semaphores: no lost wake-up", "statement": "With permits >= 1, whenever a permit is available every goroutine blocked in Acquire is able to proceed: no reachable state has both a free permit and a waiter that is asleep and un-notified.", "quantifier": "every interleaving of acquire, wait, notify, wake and release steps", "why_tests_cant": "Lost wake-ups need one exact interleaving.", "anchors": ["concurrent/sema.go:LockSemaphore.Acquire", "concurrent/sema.go:LockSemaphore.Release", "concurrent/sema.go:ChanSemaphore.Acquire"]}
{"id": "C29", "title": "The two semaphores are interchangeable", "statement": "For permits >= 1, the channel based and the lock based semaphore have exactly the same set of possible histories of calls and returns (those of one counting semaphore). With permits = 0 they differ: a Release can let an Acquire of the channel based one return.", "quantifier": "every number of goroutines, every interleaving, every history", "why_tests_cant": "Equality of two sets of histories.", "anchors": ["concurrent/sema.go:NewChanSemaphore", "concurrent/sema.go:NewLockSemaphore"]}
{"id": "C30", "title": "Event bus: dispatching never panics", "statement": "No interleaving of sends, dispatching, receiver registration, receiver close and bus close makes the dispatcher send on a closed channel.", "quantifier": "every interleaving, any number of receivers and dispatchers, duplicate names included", "why_tests_cant": "A send on a closed channel needs a particular race.", "anchors": ["event/bus.go:FanOutBus.doDispatch", "event/bus.go:FanOutBus.deregisterRecv", "event/bus.go:FanOutBus.Close"]}
{"id": "C31", "title": "Event bus: receivers see events in order, without invention or duplication", "statement": "The events one dispatcher delivers to a receiver are a subsequence of the events sent to the bus, in send order; with one dispatcher these are all it gets. With any number of dispatchers no event is delivered to a receiver more often than it was sent (but the order can then change). Reading from a receiver yields the delivered events in order of delivery, with never more than its channel's capacity underway.", "quantifier": "every interleaving, every receiver", "why_tests_cant": "All interleavings.", "anchors": ["event/bus.go:FanOutBus.doDispatch", "event/bus.go:Receiver.onEvent"]}
{"id": "C32", "title": "Event bus: Block receivers lose nothing while registered", "statement": "The dispatch of an event goes to exactly the receivers registered when it starts. A receiver registered with Block gets every such event; a receiver registered with Drop misses one only if its channel was full and nobody was waiting to receive at that moment. When the dispatch ends, every receiver has got the event or dropped it.", "quantifier": "every interleaving, every buffer size", "why_tests_cant": "All interleavings.", "anchors": ["event/bus.go:Receiver.onEvent", "event/bus.go:FanOutBus.NewRecvStrategy"]}
{"id": "C33", "title": "Event bus: Drop receivers never stall the bus", "statement": "If all registered receivers use Drop, a dispatcher that has begun to offer an event finishes without any other goroutine moving. If every receiver asked for uses Drop and no further call is made, then under every fair schedule all work gets done: every event that a dispatcher has taken is dispatched to the end, and if a dispatcher runs all sends complete and all events sent are taken. (A dispatcher that has only taken an event may have to wait for a goroutine that is about to make or close a receiver: it does not finish alone.)", "quantifier": "every reachable state, every fair continuation", "why_tests_cant": "All reachable states and all fair schedules.", "anchors": ["event/bus.go:Receiver.onEvent", "event/bus.go:FanOutBus.doDispatch"]}
{"id": "C34", "title": "Event bus: Close closes everything exactly once", "statement": "When FanOutBus.Close returns, no receiver is registered and every receiver ever made is closed, except those whose name was given to another receiver later (they are never closed, and a receiver made after Close is not either). A receiver is never closed twice, and nothing is offered to a receiver that is closed or no longer registered. A second Close, and a send, panic. (Events still in the bus's own channel at Close reach nobody.)", "quantifier": "every reachable state", "why_tests_cant": "All reachable states.", "anchors": ["event/bus.go:FanOutBus.Close"]}
{"id": "C35", "title": "Event bus: closing a receiver affects only that receiver", "statement": "A Receiver.Close that returns has closed and deregistered exactly one receiver, with the same name, and left all others alone; if the receiver was registered it is this one. (When its name was registered again the newer receiver is closed instead.) Close panics only for a receiver that is not registered any more, e.g. at the second Close; it then keeps the bus lock, and no event is ever dispatched, no receiver made or closed again.", "quantifier": "every reachable state and every receiver ever created", "why_tests_cant": "Needs name reuse histories.", "anchors": ["event/bus.go:Receiver.Close", "event/bus.go:FanOutBus.deregisterRecv", "event/bus.go:FanOutBus.NewRecvStrategy"]}
{"id": "C36", "title": "Event bus: Drain returns exactly what is buffered", "statement": "Drain, when no dispatch to the receiver is underway, returns exactly the delivered and not yet received events in order, the same on a closed receiver. In every interleaving it returns exactly what it took, a subsequence of the delivered events, finds the channel empty at the end, and can always take its next step.", "quantifier": "every buffer content", "why_tests_cant": "All contents.", "anchors": ["event/bus.go:Receiver.Drain"]}
{"id": "C37", "title": "Event bus: CollectTimeout returns only published events", "statement": "CollectTimeout returns exactly what it took from the receiver: a subsequence of the delivered events, in order, and nils. A nil is only collected after the receiver was closed and everything delivered has been taken. (So after a close it does not only return published events.)", "quantifier": "every arrival schedule and timeout position", "why_tests_cant": "Needs a close during the collection window.", "anchors": ["event/bus.go:Receiver.CollectTimeout"]}
{"id": "C38", "title": "Event bus: a receiver can always close itself", "statement": "If every receiver asked for uses Drop, each making or closing of a receiver and each closing of the bus that is under way returns under every fair schedule, or some Close panics. (With Block this is false: if the dispatcher is blocked sending to a receiver, the consumer that closes it waits for ever, whatever the schedule, unless another goroutine receives from it.)", "quantifier": "every reachable state, every fair continuation", "why_tests_cant": "Deadlock needs one interleaving.", "anchors": ["event/bus.go:Receiver.Close", "event/bus.go:FanOutBus.doDispatch"]}
{"id": "C39", "title": "Config store: reads return the last accepted value or the default", "statement": "With no loading from the persister, GetValueString(k) returns the value of the last accepted update of k since it was registered or reset, else the registered default, else a miss; GetValue, MustGet* and BatchGet* agree with it (MustGet* panic exactly on a miss).", "quantifier": "every sequence of RegisterKey, DeregisterKey, Update, UpdateNoPersist, BatchUpdate, ResetKey and reads", "why_tests_cant": "Refinement over all operation sequences.", "anchors": ["confstore/store.go:GetValueString", "confstore/store.go:GetValue", "confstore/store.go:UpdateNoPersist", "confstore/store.go:RegisterKey", "confstore/store.go:DeregisterKey", "confstore/store.go:ResetKey"]}
{"id": "C40", "title": "Config store: typed and string views agree and are valid", "statement": "Whenever GetValueString(k) hits with s, s is valid for k's registered processor and GetValue(k) returns exactly the conversion of s.", "quantifier": "every operation sequence (including loads from the persister)", "why_tests_cant": "Invariant over all histories.", "anchors": ["confstore/store.go:GetValue", "confstore/store.go:GetValueString", "confstore/store.go:UpdateNoPersist"]}
{"id": "C41", "title": "Config store: rejected updates change nothing readable", "statement": "An update with an unregistered key or an invalid value returns an error naming the key and value and no read changes; an accepted update changes the reads of that key only.", "quantifier": "every state, key and value", "why_tests_cant": "All states.", "anchors": ["confstore/store.go:UpdateNoPersist", "confstore/store.go:Update"]}
{"id": "C42", "title": "Config store: what Update persists and reports", "statement": "The documented contract, that Update(k, v) persists (k, v) iff it accepts it and reports an error iff it does not, is violated. Exactly: an accepted update leaves the persister alone and returns nil (so a loading policy can undo it at the next read); a rejected one is handed to the persister's Save, and its error is returned iff Save succeeds.", "quantifier": "every state, key, value and persister behaviour", "why_tests_cant": "Needs inspecting the persister for all outcomes; existing tests use a no-op persister.", "anchors": ["confstore/store.go:Update"]}
{"id": "C43", "title": "Config store: BatchUpdate persists what it accepted", "statement": "After a BatchUpdate with distinct non-empty keys whose save command succeeds, the Redis hash and the reads both hold every accepted value, and neither changed for rejected entries and other keys. This fails when one batch has an accepted and a rejected value for the same key, for the empty key, and silently when the save command fails.", "quantifier": "every batch and every state", "why_tests_cant": "Needs mixed batches.", "anchors": ["confstore/store.go:BatchUpdate"]}
{"id": "C44", "title": "Config store: values survive a restart", "statement": "After a BatchUpdate with distinct non-empty keys is accepted by a persister-backed store, a fresh store with the same registrations and a loading policy reads back the same values.", "quantifier": "every batch, registrations and previous persister content", "why_tests_cant": "Round trip over all values.", "anchors": ["confstore/store.go:BatchUpdate", "confstore/persister.go:redisPersister.Load", "confstore/persister.go:redisPersister.BatchSave"]}
{"id": "C45", "title": "Config store: reset and deregister", "statement": "After ResetKey(k) reads of k return the default, after DeregisterKey(k) they miss and k can be registered again; other keys are unaffected; both also remove k from the persister, so a later load does not bring the old value back (unless the delete failed).", "quantifier": "every state and every later load", "why_tests_cant": "All states.", "anchors": ["confstore/store.go:ResetKey", "confstore/store.go:DeregisterKey"]}
{"id": "C46", "title": "Config store: concurrent update and deregister", "statement": "For every interleaving of concurrent calls in which no accepted-but-unwritten update of k is overtaken by a deregistration of k, a deregistered k reads as a miss and a registered k as a value its current processor accepts. Without that condition there is an interleaving where a deregistered key still reads, and then reads a value its next processor rejects. In every interleaving the typed and the string view show one and the same value, accepted by a processor the key had.", "quantifier": "every interleaving of the lock regions", "why_tests_cant": "Needs one interleaving.", "anchors": ["confstore/store.go:UpdateNoPersist", "confstore/store.go:DeregisterKey", "confstore/store.go:RegisterKey"]}
{"id": "C47", "title": "Load policy: the persister is not queried more often than minInterval", "statement": "With NewLoadPolicy(d), d > 0, and a clock that does not go back, a read queries the persister exactly if every successful load before it ended at least d earlier (failed loads are not throttled); with d <= 0 or the simple policy every read loads; with the no-op policy none does.", "quantifier": "every sequence of read times and load outcomes", "why_tests_cant": "All histories.", "anchors": ["confstore/loader.go:defaultLoadPolicy.DoLoad"]}
{"id": "C48", "title": "Integer processor accepts exactly the integers in range", "statement": "IntProcessor(min, minIncl, max, maxIncl) accepts a string iff it is an optionally signed non-empty decimal digit string whose value fits in int64 and lies in the interval, and converts it to that value.", "quantifier": "every string and every bound", "why_tests_cant": "All strings, including overflow boundaries.", "anchors": ["confstore/procs.go:intProcessor.Validate", "confstore/procs.go:intProcessor.Convert"]}
{"id": "C49", "title": "String, bool and enum processors", "statement": "StringProcessor(a,b) accepts exactly strings of byte length a..b, Bool exactly \"true\"/\"false\" (converted to the matching bool), EnumProcessor exactly the listed strings. The Duration, Url, UrlString and RSA processors accept exactly what their parser accepts (plus, except Duration, the empty string) and convert to the parser's result.", "quantifier": "every string", "why_tests_cant": "All strings.", "anchors": ["confstore/procs.go:stringProcessor", "confstore/procs.go:boolProcessor", "confstore/procs.go:enumProcessor"]}
{"id": "C50", "title": "CSS colour processor", "statement": "CssColorHex accepts the empty string and exactly the strings that contain '#' followed by six hex digits somewhere; hence it does not guarantee a value of the form #rrggbb.", "quantifier": "every string", "why_tests_cant": "All strings.", "anchors": ["confstore/procs.go:cssColorHex.Validate"]}
{"id": "C51", "title": "Config names: flag and env names follow the convention", "statement": "The env name of a field path is its flag name with ASCII letters upper-cased and '-' turned into '_' (for paths without '-'): it is the words of the path, where every dot and every upper-case letter starts a new word, lower-cased and joined by '-' for the flag, upper-cased and joined by '_' for the env name; flag names contain no upper-case ASCII letter and no dot, env names no lower-case letter and no dot.", "quantifier": "every field path", "why_tests_cant": "All strings.", "anchors": ["conf/string.go:flagStyle", "conf/string.go:envStyle"]}
{"id": "C52", "title": "Config names: different fields get different names", "statement": "Two field paths share a flag name exactly when they have the same words up to letter case (paths without '-'), and an env name likewise (paths without '_'); so paths made of one-word names (one upper-case letter, the first; no '.', '-', '_') never collide. That different paths always get different names is false: FooBar and Foo.Bar collide.", "quantifier": "every pair of field paths", "why_tests_cant": "All pairs.", "anchors": ["conf/string.go:flagStyle", "conf/string.go:envStyle"]}
{"id": "C53", "title": "Config loading: flag over env over yaml over initial value", "statement": "After Load, each supported exported field holds the flag value if a flag was given, else the env value if set, else the yaml value if present, else its initial value; Load succeeds exactly if names do not collide, the arguments are existing flags, the file fits the type and the given values parse. This holds as long as the document sets no pointer above the field to null (then flag and env values are lost) and no two pointers in the config lead to the same struct (then they share their values).", "quantifier": "every config structure, every yaml/env/flag assignment", "why_tests_cant": "All combinations.", "anchors": ["conf/conf.go:Load", "conf/env.go:envResolver", "conf/flag.go:flagResolver", "conf/yaml.go:yamlFileResolver"]}
{"id": "C54", "title": "Config loading: pointers are initialised", "statement": "For non-recursive config types, initialisation terminates, leaves no nil pointer among exported (settable) fields reachable through exported fields, and changes nothing else: pointers that were set, and all values, are kept. For a recursive type it never terminates.", "quantifier": "every struct shape", "why_tests_cant": "All shapes; non-termination is not testable.", "anchors": ["conf/reflect.go:initStruct", "conf/reflect.go:initPtrValue"]}
{"id": "C55", "title": "Config loading: exactly the supported exported fields are visible", "statement": "The set of flags/envs registered is exactly the exported scalar fields of supported kinds reachable through exported structs or non-nil pointers, named by the dotted path of non-embedded field names; each is registered once. Load panics exactly if two of them get the same flag or env name, a flag name is already taken, or a field has a defined scalar type.", "quantifier": "every struct shape", "why_tests_cant": "All shapes.", "anchors": ["conf/reflect.go:visitExportedFields", "conf/reflect.go:visitExportedFieldsPath"]}
{"id": "C56", "title": "Tasks: lifecycle", "statement": "For every interleaving of Start/MustStart/Stop/MustStop calls: the first Start succeeds, every other Start fails with the error that tells why; the first Stop after a Start succeeds, every other Stop fails; a stopped task can never be started again; Must variants panic exactly where the others return an error; no call is ever stuck, even while a job is running. The constructors accept exactly a non-blank name, positive interval and timeout, and a job.", "quantifier": "every interleaving of calls by any goroutines with the task's own goroutines", "why_tests_cant": "All interleavings.", "anchors": ["schedule/task.go:taskCommon.markStart", "schedule/task.go:taskCommon.markStopSendSignal"]}
{"id": "C57", "title": "Fixed-delay task: runs never overlap, are numbered 1,2,3,... and are spaced by the interval", "statement": "At every moment at most one run of the job is in progress; runs are numbered consecutively from 1; a run starts no earlier than `interval` after the previous one finished; no run begins before Start; a started task that is not stopped can always begin another run within `interval` of the job's return.", "quantifier": "every interleaving, every job duration", "why_tests_cant": "All interleavings.", "anchors": ["schedule/fixed_delay_task.go:FixedDelayTask"]}
{"id": "C58", "title": "Tasks: after Stop", "statement": "After Stop has returned at most one further run of a fixed-delay task can begin (one can: that none begins is false). No goroutine of a stopped task of either kind is stuck or goes on for ever: the number of steps left is bounded, and when no step is left all have returned, after which no job ever begins.", "quantifier": "every interleaving and stop point", "why_tests_cant": "All interleavings.", "anchors": ["schedule/fixed_delay_task.go:startConsuming", "schedule/task.go:appendJobQueue", "schedule/task.go:runJob"]}
{"id": "C59", "title": "Tasks: cancellation", "statement": "While a run is in progress its cancel channel is closed only if the timeout elapsed or Stop was called; once Stop was called or the timeout has elapsed it can always be closed at once; and the scheduler never abandons a run: it goes on only after the job function has returned.", "quantifier": "every interleaving and every timing of timeout, stop and job end", "why_tests_cant": "All interleavings.", "anchors": ["schedule/task.go:runJob"]}
{"id": "C60", "title": "Fixed-rate task: no more runs than ticks", "statement": "Run number m begins no earlier than m-1 intervals after Start takes effect (an instant between its call and its return), and at any time at most 1 + the number of intervals elapsed since then have begun; all runs, those beginning after Stop included, were due before Stop returned. Numbers are unique and, when the task has ended, exactly 1..N. Runs may overlap and begin out of order, and more than one may begin after Stop (that at most one does is false).", "quantifier": "every interleaving", "why_tests_cant": "All interleavings.", "anchors": ["schedule/fixed_rate_task.go:FixedRateTask"]}
{"id": "C61", "title": "Task manager", "statement": "At any time a name stands for at most one registered task, which bears the name and was started; Register fails with an error iff the name is taken, panics iff the name is free and the task was started before, and otherwise starts the task; when Unregister or UnregisterAll returns, exactly the named/all registered tasks have been stopped and forgotten; no call is ever stuck. A failed Register changes nothing if it returned an error, but not if it panicked: then the name stays taken.", "quantifier": "every interleaving of manager calls and direct Start/Stop calls by any goroutines", "why_tests_cant": "All interleavings.", "anchors": ["schedule/task_manager.go:taskManager"]}
{"id": "C62", "title": "Connection configs: String never reveals credentials", "statement": "String() of MysqlConf, OracleConf, PostgresqlConf, RedisConf, EsConf and PprofConf does not depend on the username/password fields.", "quantifier": "every pair of configs differing only in credentials", "why_tests_cant": "Non-interference over all values.", "anchors": ["confs/mysql.go:String", "confs/oracle.go:String", "confs/postgresql.go:String", "confs/redis.go:String", "confs/es.go:String", "confs/pprof.go:String"]}
{"id": "C63", "title": "Connection configs: String shows the configured values", "statement": "Each value printed by String() of RedisConf, EsConf, PprofConf and FastHttpClientConf is the field it is labelled with. For MysqlConf, OracleConf and PostgresqlConf this holds exactly if MaxOpenConns = MaxIdleConns, because both labels show MaxIdleConns; that it always holds is false.", "quantifier": "every config", "why_tests_cant": "All values.", "anchors": ["confs/mysql.go:String", "confs/oracle.go:String", "confs/postgresql.go:String"]}
{"id": "C64", "title": "Connection params: parsing of Params", "statement": "The driver parameters are exactly the well-formed k=v items of Params with URL-decoded values, later items overriding earlier ones; malformed items are ignored; for MySQL the customizer overrides Params, for Oracle and PostgreSQL Params overrides the customizer, which overrides the options from the other fields. Url-encoded values of any bytes arrive unchanged. Preparation fails exactly for an unknown MySQL time zone and for an Oracle config without SID and service.", "quantifier": "every Params string", "why_tests_cant": "All strings.", "anchors": ["confs/mysql.go:prepareMySqlNativeConfig", "confs/oracle.go:prepareUrlOptions", "confs/postgresql.go:preparePgUrlOptions"]}
{"id": "C65", "title": "PostgreSQL DSN carries the configured credentials", "statement": "Read as a URL, the DSN built for PostgreSQL gives back user, password, host, port, database and all options (with values of any bytes, escaped byte by byte, in any order of the options), provided that user, password, host, database and option names consist of unreserved characters. Without that it is false: credentials are not escaped, so different credentials give the same DSN and a password can make the DSN name another host.", "quantifier": "every config and every set of options", "why_tests_cant": "Injectivity over all strings.", "anchors": ["confs/postgresql.go:buildPgDsn"]}
{"id": "C66", "title": "HTTP client: trust mode is honoured", "statement": "A client from NewFastHttpClient skips certificate verification iff mode is INSECURE, uses the client certificate iff one is configured, and uses exactly the certificates of all listed files as CA pool iff mode is CUSTOM with certificates and a client certificate is configured; that CUSTOM alone suffices is false: without a client certificate it is silently ignored. No client is made exactly if a configured certificate cannot be loaded. Limits and timeouts are the configured ones.", "quantifier": "every config", "why_tests_cant": "All configs.", "anchors": ["confs/fasthttpclient.go:NewFastHttpClient"]}
{"id": "C67", "title": "pprof handler: serves only the right credentials", "statement": "The fasthttp pprof handler serves profiling data exactly if username and password are configured and free of ':' and the request's Authorization header (with or without 'Basic ') is base64 for username:password; that it serves every request with the right credentials is false when they contain ':'. The gin filter passes exactly the requests whose header is 'Basic ' and the canonical base64 of the configured username:password. Without configured credentials nothing is ever served and profiling stays off.", "quantifier": "every header and every config", "why_tests_cant": "All strings; base64 decoding included.", "anchors": ["confs/pprof.go:NewFasthttpRoutingPprofHandler", "confs/pprof.go:NewGinPprofBasicAuthFilter"]}
{"id": "C68", "title": "PEM normalisation", "statement": "normalising a PEM string is idempotent, leaves strings that already have both markers unchanged and otherwise wraps the text between matching BEGIN/END lines; reading a private key or certificate never panics; that reading a public key never panics is false: it panics exactly for a well-formed key that is not RSA. The Must variants return the same results and panic exactly where the others do not return one.", "quantifier": "every string", "why_tests_cant": "All strings.", "anchors": ["util/rsa/util.go:normalizePem", "util/rsa/util.go:ReadPublicKeyBytes"]}
{"id": "C69", "title": "Tracing: every span is ended exactly once", "statement": "Whatever the handlers of a request do (redis commands and pipelines, calls of other services, nested middlewares), every span that the middleware, the redis hook and the client helper create is ended exactly once and not touched afterwards, provided no handler panics and each redis client has at most one tracing hook with no refusing hook after it; without each of these it is false (span left open, or one span ended twice and the other never). Every parent exists before its child. The span of a request tells its outcome: an error of the handlers, else of the context, else a status of 400 or more. That a command is unaffected by tracing is false if the tracer refuses its span: the hook panics; that each failed pipeline is reported is false for errors with empty text. Error texts, response bodies and command arguments are told only if the options for them were given.", "quantifier": "every program of handlers, options and tracer decisions", "why_tests_cant": "All handler programs and all outcomes.", "anchors": ["skywalking/fasthttp-routing/middleware.go:NewMiddleware", "skywalking/redis/hook.go:tracerHook", "skywalking/fasthttp/client_span.go:ClientSpanHelper"]}
{"id": "C70", "title": "Elasticsearch client limits", "statement": "The idle limit per host of the HTTP transport is the configured MaxConnsPerHost, the global idle limit is MaxIdleConnsPerHost and connections per host are not limited at all; that the limits are those their names say is false. Addresses and credentials are the configured ones.", "quantifier": "every config", "why_tests_cant": "All configs.", "anchors": ["confs/es.go:NewEsClient"]}
{"id": "C71", "title": "Drivers get the configured connection settings", "statement": "The MySQL and Redis drivers get user, password, database, timeouts, zone and pool settings as configured and an address that determines host and port; the pools of the SQL drivers have the configured limits (also where String() shows others).", "quantifier": "every config", "why_tests_cant": "All configs; injectivity of the address over all hosts and ports.", "anchors": ["confs/mysql.go:prepareMySqlNativeConfig", "confs/redis.go:prepareRedisNativeConfig", "confs/oracle.go:NewOracleDb", "confs/postgresql.go:NewPostgresqlDb"]}
{"id": "C72", "title": "Keys and certificates are read from the text that holds them", "statement": "Bare base64 text, with line breaks and blanks anywhere, is read as the key or certificate whose DER it encodes; so is a PEM block of the right type with lines before and after it, while a block of another type gives an error naming that type. Nothing is read from text that has no such block; that incomplete text is refused is false: a block cut off before its END line is read. A PEM text made from a private key's public key is read back as that public key, if the X.509 encoding can be read back.", "quantifier": "every text, every parser", "why_tests_cant": "All texts with all line breaks and blanks; includes base64 and PEM decoding.", "anchors": ["util/rsa/util.go:ReadPrivateKey", "util/rsa/util.go:ReadPublicKey", "util/rsa/util.go:ReadX509Certificate", "util/rsa/util.go:ExtractPublicKeyPem"]}
{"id": "C73", "title": "Tracing does not change responses", "statement": "If no handler returns an error, the response of a traced request is that of the untraced one. Without a tracer, or if the tracer refuses the span, a handler's error stops the later handlers and becomes the response. That the same holds for traced requests is false: the middleware forgets the error, the later handlers run and their response is sent, e.g. after a failed access check.", "quantifier": "every chain of handlers", "why_tests_cant": "All chains and errors; needs the router's semantics.", "anchors": ["skywalking/fasthttp-routing/middleware.go:NewMiddleware"]}
{"id": "C74", "title": "Where spans are sent", "statement": "Spans are sent to the configured server; exactly without configuration or server address they are dropped, and a failed connection setup is reported as an error. Services with different namespace, name or instance are told apart if the namespaces have no ':'; in general this is false.", "quantifier": "every config", "why_tests_cant": "All strings.", "anchors": ["skywalking/factory.go:NewGrpcOrNoopReporter", "skywalking/factory.go:NewTracer"]}
{"id": "C75", "title": "Maps survive being written as JSON and read back", "statement": "A map[string]interface{} of nil, bools, finite floats, UTF-8 strings, slices and such maps with UTF-8 keys, nested at most 10000 deep, comes back from MarshalM and UnmarshalM with the same content, and a nil map as a nil map. Other values come back converted: integers as float64, []byte as base64 text, nil slices and nil maps as nil, broken UTF-8 as U+FFFD. That everything that can be written can be read is false: more than 10000 nested maps are refused; that two keys stay two keys is false for keys that are not UTF-8.", "quantifier": "every map, every finite float64", "why_tests_cant": "All maps of all depths and all strings.", "anchors": ["dto/m.go:MarshalM", "dto/m.go:UnmarshalM"]}
{"id": "C76", "title": "UnmarshalM accepts exactly JSON objects", "statement": "UnmarshalM succeeds exactly for texts that are, up to white space around them, a JSON object by the grammar of RFC 8259 nested at most 10000 deep with numbers in the range of float64, and for null. The result is the content of the text; of members with the same name the last counts; escapes, surrogate pairs and broken UTF-8 are decoded as specified. Each text has one meaning. That a successful result is a usable map is false: null gives a nil map without an error.", "quantifier": "every text", "why_tests_cant": "All texts; soundness and completeness of a parser.", "anchors": ["dto/m.go:UnmarshalM"]}
{"id": "C77", "title": "MarshalM is deterministic and safe to embed", "statement": "Maps with the same content have the same JSON text, whatever order their entries were put in. The text is a JSON text for the map, is UTF-8 and has no control characters below U+0020, no < > & and no U+2028 or U+2029, whatever the strings in the map are. MarshalM fails exactly for maps that hold, at any depth, an unsupported value or a float without a text.", "quantifier": "every map", "why_tests_cant": "All maps; independence of the iteration order.", "anchors": ["dto/m.go:MarshalM"]}
{"id": "C78", "title": "Numbers in JSON are read as the nearest float64", "statement": "Every number literal of JSON has one value. UnmarshalM reads it as the float64 nearest to that value, of two equally near ones the one with an even mantissa, with the sign of the literal (also for zero); there is only one such float64. It reports an error for a number exactly if its absolute value is at least the largest float64 plus half a unit in the last place. This holds for every text of at most 9000 characters and every number whose exponent is below 100000; that it holds for all texts is false: a 1 written as 0.00...01e100001 with 100000 zeros is read as 0.", "quantifier": "every number literal, of any number of digits and with any exponent", "why_tests_cant": "All digit strings; correct rounding fails only for rare digit strings near the middle of two floats.", "anchors": ["dto/m.go:UnmarshalM"]}
{"id": "C79", "title": "Floats are written with the fewest digits that read back", "statement": "Every finite float64 in a map is written as a JSON number that is read back as exactly this float64 (also -0), with at most 17 digits. No number with fewer significant digits is read as this float64 (numbers of more than 9000 characters with exponents of more than five digits aside), and of those with as many digits the written one is nearest to it. Different floats have different texts. Numbers from 1e-6 to below 1e21 are written without exponent, all others except 0 with one. Infinities and NaN are not written: MarshalM fails.", "quantifier": "every float64", "why_tests_cant": "2^64 floats; shortest digits fail only for rare floats.", "anchors": ["dto/m.go:MarshalM"]}
{"id": "C80", "title": "Integers in maps up to 2^53 keep their values", "statement": "Every 64-bit integer in a map is read back as the nearest float64, up to 2^53 in absolute value with the same value; a float64 holding an integer below 2^53 is written as that integer, without dot or exponent. A map of nil, bools, finite floats, UTF-8 strings, slices and maps that is written, read and written again has the same text as the first time. That all integers keep their values is false: 2^53 and 2^53+1 come back as the same number.", "quantifier": "every 64-bit integer, every map", "why_tests_cant": "All integers and all maps.", "anchors": ["dto/m.go:MarshalM", "dto/m.go:UnmarshalM"]}
{"id": "C81", "title": "Durations in flags, env and config values mean what they say", "statement": "A duration given as text - for a time.Duration config field on the command line or in the environment, or to the Duration processor - is accepted only if it is an optional sign followed by one or more decimal numbers with the units ns, us (or with a micro sign or mu), ms, s, m, h, or is 0. Every such text whose sum fits int64 is accepted, and the sum is the result, exactly if no number has more digits after the dot than whole nanoseconds need, otherwise up to 1.1 ns per number; sums that do not fit are refused. That the result is always exact is false: 0.29724369509000h loses a nanosecond. That every sum that does not fit is refused is false with Go 1.18 and later: 2^63 ns twice gives 0 without an error. The Duration processor accepts exactly these texts and converts them to these values.", "quantifier": "every text, both ways of summing up (Go to 1.17, from 1.18)", "why_tests_cant": "All texts of all lengths; float64 rounding in the fraction, overflow at the limits of int64.", "anchors": ["conf/flag.go:flagResolver.init", "conf/env.go:envResolver.init", "confstore/procs.go:durationProcessor"]}
{"id": "C82", "title": "Durations are printed exactly and read back", "statement": "The text of a duration in the String methods of the configs says exactly its nanoseconds: below a second in ns, microseconds or ms, above in hours, minutes below 60 and seconds below 60, with no needless zeros. Different durations have different texts. A printed duration given as flag, env or config value is read as the same duration; the one exception, with Go to 1.17, is -2^63 ns, which is refused.", "quantifier": "every int64 number of nanoseconds", "why_tests_cant": "2^64 values; carries between units, zeros in fractions and the least int64.", "anchors": ["confs/mysql.go:MysqlConf.String", "confs/fasthttpclient.go:FastHttpClientConf.String", "conf/flag.go:flagResolver.init"]}
{"id": "C83", "title": "Integers and booleans in flags and env mean what they say", "statement": "For an integer config field a flag or environment variable is accepted exactly if it is an integer literal of the Go language (decimal, 0b, 0o or 0 for octal, 0x, single underscores between digits) that fits 64 bits, for signed fields with an optional sign, and gives that number; a text is the literal of at most one number. Every number as it is printed in decimal is read back. Booleans are exactly 1 t T true TRUE True and 0 f F false FALSE False. That zeros in front do not matter is false: 010 is 8 and 08 is refused.", "quantifier": "every text, every 64-bit integer", "why_tests_cant": "All texts; soundness and completeness of a parser with wrap-around arithmetic.", "anchors": ["conf/flag.go:flagResolver", "conf/env.go:envResolver"]}
{"id": "C84", "title": "Floating-point numbers in flags and env mean what they say", "statement": "For a float64 config field a flag or environment variable is accepted only if it is a floating-point or decimal integer literal of the Go language (also hexadecimal with p exponent, single underscores between digits) with optional sign, or inf, infinity, nan in any case. Each has one value; the field gets the float64 nearest to it, of two the one with even mantissa, with the sign of the text, and the text is refused exactly if the value is out of range. This holds for every text of at most 2000 characters and every text whose exponent is below 100000; that it holds for all texts is false. JSON numbers are read as in JSON texts, and every finite float64 can be given. The 64 bits of the field encode the number as in IEEE 754.", "quantifier": "every text", "why_tests_cant": "All texts; correct rounding fails only for rare digit strings.", "anchors": ["conf/flag.go:flagResolver", "conf/env.go:envResolver"]}
{"id": "C85", "title": "Loaded fields hold what their flags and env say", "statement": "After a successful Load each supported field that a flag, or else an environment variable, says something about (and that the document does not cut off) holds a value that this text stands for: a boolean, an integer in range, the nearest float64, the text itself or a duration. Load succeeds if names do not clash, the arguments and the document can be read and all texts are well-formed and in range; it does not succeed if an environment variable or a flag of a field has a text that stands for nothing.", "quantifier": "every config type, command line, environment and yaml document", "why_tests_cant": "All types and texts; joins parsing of values with the precedence of the sources.", "anchors": ["conf/conf.go:Load", "conf/flag.go:flagResolver", "conf/env.go:envResolver"]}
{"id": "C86", "title": "URL config values are exactly URLs with the parts they say", "statement": "A value for a key with the Url or UrlString processor is accepted exactly if it is empty or a URL by a grammar: no control characters; '*', or a path from the root, or a scheme with an opaque part, a rooted path or an authority (user, password, host, IPv6 address with zone, port) and a path, each with an optional query. Both accept the same; a refused value is reported as 'not url value'. The Url processor gives nil for the empty text, otherwise the parts of the text, percent-decoded, with the scheme in lower case; a text has only one set of parts. Every path can be written. The host has none of / ? # @ \\ and no control characters. That each accepted value has a scheme and a host is false (javascript:x, /x), that the path has no control characters and no fragment is false.", "quantifier": "every text", "why_tests_cant": "All texts; soundness and completeness of a parser.", "anchors": ["confstore/procs.go:urlProcessor", "confstore/procs.go:urlStringProcessor"]}
{"id": "C87", "title": "Key config values are exactly readable keys", "statement": "A value for a key with the private key processor is accepted exactly if it is empty or a private key can be read from it, is converted to that key (nil for the empty text), and a refusal gives the error of reading; checking it never panics. The same holds for public keys, except that checking panics exactly if the text holds a public key that is not RSA. That checking a public key always gives an answer is false.", "quantifier": "every text, every parser of key contents", "why_tests_cant": "All texts; includes PEM and base64 decoding.", "anchors": ["confstore/procs.go:rsaPrivateKeyPkcs1", "confstore/procs.go:rsaPublicKey"]}
{"id": "C88", "title": "A panicking processor does not break the config store", "statement": "If every processor can convert what it accepts, as those of the package do, no call ever waits for a lock left locked, however many calls panicked before and were recovered from. Then an update panics exactly if checking its value does, and changes nothing; nor does a registration that panics. A batch update that panics has made exactly the updates before the first value whose check panics, and saved none; that it has no effect is false. That calls never block is false for other processors: if converting an accepted value panics, no read, reset, registration or removal ever returns again. With processors that do not panic everything is as without this.", "quantifier": "every store, every sequence of calls with recovered panics", "why_tests_cant": "All call sequences and processors; locks left behind show only later.", "anchors": ["confstore/store.go:UpdateNoPersist", "confstore/store.go:RegisterKey", "confstore/store.go:BatchUpdate", "confstore/loader.go:DoLoad"]}
{"id": "C89", "title": "A saved value whose check panics stops all reads", "statement": "While the persister holds a value whose check panics for a registered key, no read of any key returns, with the policies that load at every read; with Redis all reads panic until the value is removed. Resetting the key removes it, and then all reads return if there is no other such value. The text of a public key that is not RSA, for a key with the public key processor, is such a value. That one bad value concerns only reads of its key is false.", "quantifier": "every store, persister content and number of reads", "why_tests_cant": "All sequences; needs content that another process saved.", "anchors": ["confstore/store.go:GetValue", "confstore/loader.go:simpleLoadPolicy.DoLoad", "confstore/persister.go:redisPersister.Load", "confstore/procs.go:rsaPublicKey"]}
{"id": "C90", "title": "Event bus: only a full, unread Block receiver stalls it", "statement": "When no dispatcher can move and no send, making or closing of a receiver, or closing of the bus that was started can go on, then either all of it is done, or a Close has panicked, or a dispatcher has an event for a registered Block receiver whose channel is full and which nobody waits on; whoever is in a call that receives from it can go on. Such a point is reached under every fair schedule and, short of new calls, after a bounded number of moves whatever else happens. Conversely, as long as nobody receives from that receiver no receiver is made or closed, the bus is not closed and the dispatcher is not done with its event, whatever is called and scheduled.", "quantifier": "every reachable state, every fair schedule, every continuation", "why_tests_cant": "Needs all interleavings of dispatchers, senders, closers and consumers, with readers held back behind a waiting writer.", "anchors": ["event/bus.go:FanOutBus.doDispatch", "event/bus.go:Receiver.onEvent", "event/bus.go:FanOutBus.deregisterRecv", "event/bus.go:FanOutBus.NewRecvStrategy", "event/bus.go:FanOutBus.Close"]}
{"id": "C91", "title": "Event bus: closing it ends all dispatcher goroutines", "statement": "After FanOutBus.Close was called, if every receiver asked for uses Drop, every goroutine started by GoDispatch ends under every fair schedule, or some Close panics: no goroutine is leaked.", "quantifier": "every reachable state, every fair continuation", "why_tests_cant": "A leak shows only in long runs.", "anchors": ["event/bus.go:FanOutBus.Close", "event/bus.go:FanOutBus.GoDispatch", "event/bus.go:FanOutBus.doDispatch"]}
{"id": "C92", "title": "Config store: no data races", "statement": "However many goroutines call the methods of however many stores (with processors that do not call the store), two of them are never about to access the same map of a store, or the load time of its policy, with one of them writing.", "quantifier": "every number of goroutines, stores and load policies, every interleaving of lock operations, map accesses, Redis commands and clock readings, every Redis failure", "why_tests_cant": "The race detector reports only races that a run hits.", "anchors": ["confstore/store.go:defaultImpl.UpdateNoPersist", "confstore/store.go:defaultImpl.GetValue", "confstore/store.go:defaultImpl.RegisterKey", "confstore/store.go:defaultImpl.DeregisterKey", "confstore/store.go:defaultImpl.ResetKey", "confstore/loader.go:defaultLoadPolicy.DoLoad"]}
{"id": "C93", "title": "Config store: no deadlock, every call returns", "statement": "While a method of a store is running, some goroutine can go on, although two RW locks and the lock of the load policy are taken in nested ways and a waiting writer holds back readers; short of new calls only a bounded number of steps remains, whatever the schedule; and if every goroutine gets its turn again and again, all calls return.", "quantifier": "every reachable state of every number of goroutines and stores, every schedule, every fair continuation", "why_tests_cant": "A deadlock needs a particular interleaving of readers and waiting writers.", "anchors": ["confstore/store.go:defaultImpl.RegisterKey", "confstore/store.go:defaultImpl.DeregisterKey", "confstore/store.go:defaultImpl.UpdateNoPersist", "confstore/store.go:defaultImpl.BatchUpdate", "confstore/store.go:defaultImpl.ResetKey", "confstore/store.go:defaultImpl.GetValueString", "confstore/loader.go:defaultLoadPolicy.DoLoad"]}
{"id": "C94", "title": "Config store: which reads see a saved value, across processes", "statement": "Take any moment when a value that the key's processor in store S accepts is saved in Redis (for instance because a BatchUpdate in any process has returned without an error for the key), no call reads S, none that changes the key is under way, and Redis works from then on. As long as the key is left alone, every GetValue, GetValueString, MustGet..., BatchGet... on S that starts later shows that value: at once with SimpleLoadPolicy or an interval <= 0, and from d after that moment on with an interval d > 0. The condition that no call reads S is needed: a read that is under way can write an older value back, so that a read started after the BatchUpdate shows the old value, even after another one has shown the new value, longer than d after the BatchUpdate, and in the very process and goroutine of the BatchUpdate.", "quantifier": "every number of processes and goroutines, every interleaving, every map iteration order, every clock", "why_tests_cant": "The window is between HGETALL and the writes of a load in another goroutine.", "anchors": ["confstore/loader.go:defaultLoadPolicy.DoLoad", "confstore/loader.go:simpleLoadPolicy.DoLoad", "confstore/persister.go:redisPersister.Load", "confstore/store.go:defaultImpl.GetValue", "confstore/store.go:defaultImpl.BatchGetValues", "confstore/store.go:defaultImpl.BatchUpdate"]}
{"id": "C95", "title": "Config store: Reset among other calls and other processes", "statement": "When a ResetKey has returned, with Redis working, no call reading that store meanwhile and the key otherwise left alone, nothing is saved for the key and all later reads of that store show the default. But once nothing is saved for a key, every store (not being read at that moment) goes on showing for ever what it shows, whatever its load policy: a ResetKey in one process is never seen by the others that have loaded the value; and a read under way in the same process can bring the old value back.", "quantifier": "every number of processes and goroutines, every interleaving", "why_tests_cant": "Needs several processes and all later reads.", "anchors": ["confstore/store.go:defaultImpl.ResetKey", "confstore/persister.go:redisPersister.Load", "confstore/persister.go:redisPersister.Delete", "confstore/loader.go:simpleLoadPolicy.DoLoad"]}
{"id": "C96", "title": "Config store: BatchUpdate saves what it reports, among other calls", "statement": "When a BatchUpdate with different keys has returned, every key without a reported error is saved in Redis with its new value, whatever other goroutines and processes do meanwhile (loads, updates and registrations of other keys), as long as Redis works and nobody else changes what is saved for the key.", "quantifier": "every number of processes and goroutines, every interleaving", "why_tests_cant": "Needs all interleavings of the calls.", "anchors": ["confstore/store.go:defaultImpl.BatchUpdate", "confstore/persister.go:redisPersister.BatchSave"]}
{"id": "C97", "title": "Config store: calls with one key take effect at one instant", "statement": "From any moment at which no call is under way, over any number of processes with their own stores and one Redis hash: whatever goroutines do with Update, UpdateNoPersist and Reset, and with Get, GetString, MustGet and MustGetString in stores that never load, there is for every call an instant between its call and its return such that all results, and in the end all stores and the Redis hash, are those of the same calls made one after the other in the order of these instants. This is false for the calls with several keys: BatchGet can return two values that were never there together, and a BatchUpdate can be seen half done (also by one goroutine that reads two keys one after the other).", "quantifier": "every number of goroutines, processes and keys, every interleaving of lock operations, map accesses and Redis commands, every behaviour of Redis, every state reached before", "why_tests_cant": "Linearizability quantifies over all interleavings and needs a witness order for each of them.", "anchors": ["confstore/store.go:defaultImpl.Update", "confstore/store.go:defaultImpl.UpdateNoPersist", "confstore/store.go:defaultImpl.ResetKey", "confstore/store.go:defaultImpl.GetValue", "confstore/store.go:defaultImpl.BatchGetValues", "confstore/store.go:defaultImpl.BatchUpdate"]}
{"id": "C98", "title": "Config store: a call that no other overlaps behaves as in the one-goroutine store", "statement": "If a method of a store is called at a moment when no call is under way in any process, and no other starts before it returns, then what it returns, and what it does to the store, to the load time of its policy and to Redis, are what the call does in a store used by a single goroutine (the store of the properties about sequences of calls), with the clock readings that were taken on the way, in their order; nothing else changes. So whatever interleavings came before, the properties of sequences of calls hold again for calls that do not overlap.", "quantifier": "every state reached by any number of goroutines and processes, every method, store, load policy, clock and behaviour of Redis", "why_tests_cant": "Relates every quiescent concurrent state to the sequential behaviour.", "anchors": ["confstore/store.go:defaultImpl.Update", "confstore/store.go:defaultImpl.BatchUpdate", "confstore/store.go:defaultImpl.RegisterKey", "confstore/store.go:defaultImpl.DeregisterKey", "confstore/store.go:defaultImpl.ResetKey", "confstore/store.go:defaultImpl.BatchGetValues", "confstore/loader.go:defaultLoadPolicy.DoLoad"]}
{"id": "C99", "title": "Config store: an interval bounds the load on Redis, with any number of readers", "statement": "A store with a load interval d > 0 sends at most 1 + floor((b - a) / d) HGETALL commands while the clock shows values from a to b, not going back, however many goroutines call whatever methods of it: as long as Redis answers. When Redis does not answer the bound is false: every read sends one more, at the same instant.", "quantifier": "every number of goroutines, stores and methods called, every interleaving, every stretch of time", "why_tests_cant": "A stampede of readers at the end of an interval depends on the interleaving.", "anchors": ["confstore/loader.go:defaultLoadPolicy.DoLoad", "confstore/store.go:defaultImpl.GetValue", "confstore/persister.go:redisPersister.Load"]}
{"id": "C100", "title": "Limiters and circuit breaker: no data races, no deadlock, calls return", "statement": "However many goroutines call the methods of one SyncTokenBucket, SyncFixedWindow or SyncSlidingWindow (with UpdateConfig), or consult one circuit breaker and record failures and successes in it as Do does, two of them are never about to access the same field with one of them writing; while a call is in progress some goroutine can go on; and if every goroutine gets its turn again and again, all calls return.", "quantifier": "every number of goroutines, every interleaving of single field accesses, lock operations and clock readings, every clock, every configuration", "why_tests_cant": "The race detector reports only races that a run hits.", "anchors": ["ratelimiter/tokenbucket.go:SyncTokenBucket.Acquire", "ratelimiter/fixedwindow.go:SyncFixedWindow.Acquire", "ratelimiter/slidingwindow.go:SyncSlidingWindow.Acquire", "ratelimiter/slidingwindow.go:SyncSlidingWindow.UpdateConfig", "circuitbreaker/circuitbreaker.go:SyncCircuitBreaker.state", "circuitbreaker/circuitbreaker.go:SyncCircuitBreaker.recordFailure", "circuitbreaker/circuitbreaker.go:SyncCircuitBreaker.reset"]}
{"id": "C101", "title": "Limiters and circuit breaker: calls take effect at one instant", "statement": "Whatever goroutines do with one of these limiters, every call has an instant between its call and its return such that in the order of these instants the calls return what they would return one after the other (as in the properties about sequences of calls), each with clock readings taken between its call and that instant. In particular Acquire of the sliding window never panics while UpdateConfig runs. The same holds for the steps of the circuit breaker's Do: consulting the breaker, recording a failure, recording a success.", "quantifier": "every number of goroutines, every interleaving of single field accesses, lock operations and clock readings, every clock, every configuration", "why_tests_cant": "Linearizability quantifies over all interleavings and needs a witness order for each of them.", "anchors": ["ratelimiter/tokenbucket.go:SyncTokenBucket.Acquire", "ratelimiter/fixedwindow.go:SyncFixedWindow.Acquire", "ratelimiter/slidingwindow.go:SyncSlidingWindow.Acquire", "ratelimiter/slidingwindow.go:SyncSlidingWindow.UpdateConfig", "circuitbreaker/circuitbreaker.go:SyncCircuitBreaker.state", "circuitbreaker/circuitbreaker.go:SyncCircuitBreaker.recordFailure", "circuitbreaker/circuitbreaker.go:SyncCircuitBreaker.reset"]}
{"id": "C102", "title": "Token bucket: rate in real time with any number of goroutines", "statement": "With a clock that does not go back: calls of Acquire that return true and lie within the time from the creation t0 to t number at most capacity + rate * floor((t - t0) / 1 s), and those that start and return while the clock goes from a to b at most capacity + rate * (floor((b - a) / 1 s) + 1), however many goroutines call and however long they are held up between reading the clock and anything else.", "quantifier": "every number of goroutines, every interleaving, every stretch of a run, every capacity and rate without overflow", "why_tests_cant": "Time passes between any two steps of a call; a test sees few of these delays.", "anchors": ["ratelimiter/tokenbucket.go:SyncTokenBucket.Acquire", "ratelimiter/tokenbucket.go:SyncTokenBucket.issueIfNecessary"]}
{"id": "C103", "title": "Sliding window: rate in real time with any number of goroutines", "statement": "Take any moment without calls in progress, with capacity c > 0 and window size w in force, which are not changed from then on. In any later stretch of time during which the clock stays within an interval of length w, at most c calls of Acquire that start and return in it return true, although the clock is read before the lock is taken and goroutines can be held up in between; the clock may even jump back and forth.", "quantifier": "every number of goroutines, every interleaving, every clock, every history before including reconfigurations", "why_tests_cant": "Time passes between any two steps of a call; a test sees few of these delays.", "anchors": ["ratelimiter/slidingwindow.go:SyncSlidingWindow.Acquire", "ratelimiter/slidingwindow.go:SyncSlidingWindow.UpdateConfig"]}
{"id": "C104", "title": "Fixed window: rate in real time with any number of goroutines", "statement": "For a limiter of capacity c and window size w used over a period of up to 2^52 ns: calls of Acquire that start and return in a stretch of time during which the clock shows values from a to b, and never more before, number at most c * (ceil((b - a) / w) + 1) that return true, if some Acquire has returned before; for a new limiter one more. Without that one more it is false: two goroutines can both be granted at the same instant by a new limiter of capacity 1.", "quantifier": "every number of goroutines, every interleaving, every stretch, every capacity and window size below 2^60 ns", "why_tests_cant": "Late goroutines act on old clock readings; the extra grant depends on rounding of float64.", "anchors": ["ratelimiter/fixedwindow.go:SyncFixedWindow.Acquire", "ratelimiter/fixedwindow.go:SyncFixedWindow.reset"]}
{"id": "C105", "title": "Config store without persistence: a plain map, whatever the load policy", "statement": "A store with NoopPersister answers every call of every method as a plain map from keys to entries (processor, default, current value) does: register, deregister, reset, update, batch update and reads. Load policy and clock make no difference.", "quantifier": "every sequence of calls, every processor, key, value, load policy and clock", "why_tests_cant": "All sequences of calls and all policies.", "anchors": ["confstore/persister.go:noopPersister", "confstore/store.go:defaultImpl.Update", "confstore/store.go:defaultImpl.GetValue", "confstore/store.go:defaultImpl.BatchUpdate", "confstore/loader.go:defaultLoadPolicy.DoLoad"]}
{"id": "C106", "title": "Semaphores: first come, first served", "statement": "Channel based semaphore: from a moment when a goroutine is blocked in Acquire, until it gets a permit only goroutines that were blocked at that moment get one, each at most once and one for each Release, and no TryAcquire succeeds; so after as many Releases as goroutines were blocked, it has a permit. For the lock based semaphore this is false: in some endless run in which all goroutines get their turn again and again and all permits are given back, one waits in Acquire forever while another one gets permits over and over.", "quantifier": "every number of permits and goroutines, every interleaving; for the counterexample an infinite fair schedule", "why_tests_cant": "Starvation is a property of infinite runs.", "anchors": ["concurrent/sema.go:ChanSemaphore.Acquire", "concurrent/sema.go:ChanSemaphore.Release", "concurrent/sema.go:ChanSemaphore.TryAcquire", "concurrent/sema.go:LockSemaphore.Acquire", "concurrent/sema.go:LockSemaphore.Release"]}
{"id": "C107", "title": "Limiters: whoever comes after a quiet time is served, with any number of goroutines", "statement": "Take any moment of a run without calls in progress, let the clock move on, and let any number of goroutines call Acquire. Token bucket: if s seconds have passed, no call is refused as long as there are at most capacity and at most rate * s calls; a new bucket refuses none of its first capacity calls. Sliding window with capacity c and window size w in force and not changed: if more than w has passed, none of the next c calls is refused; with capacity 0 none at all. Fixed window of capacity c, size w, used over up to 2^52 ns: if w + 2^11 ns have passed, none of the next c calls is refused.", "quantifier": "every history before, every number of goroutines, every interleaving, every capacity, rate and window size without overflow", "why_tests_cant": "Spurious refusals under contention show in few interleavings.", "anchors": ["ratelimiter/tokenbucket.go:SyncTokenBucket.Acquire", "ratelimiter/tokenbucket.go:SyncTokenBucket.issueIfNecessary", "ratelimiter/slidingwindow.go:SyncSlidingWindow.Acquire", "ratelimiter/fixedwindow.go:SyncFixedWindow.Acquire", "ratelimiter/fixedwindow.go:SyncFixedWindow.reset"]}
{"id": "C108", "title": "Circuit breaker: load on a failing service is bounded", "statement": "As long as every task that finishes returns an error, n goroutines calling Do run at most threshold + n - 1 tasks in any stretch of time as long as resetTimeout, whatever happened before, and at most n once the breaker has opened. For tasks that panic there is no bound: one goroutine can run any number of them at one instant, as a panic is not recorded as a failure.", "quantifier": "every number of goroutines, every interleaving, every duration of tasks, every history before, every stretch, a clock that does not go back", "why_tests_cant": "Slow tasks started before the breaker opens overlap in unboundedly many ways.", "anchors": ["circuitbreaker/circuitbreaker.go:SyncCircuitBreaker.Do", "circuitbreaker/circuitbreaker.go:SyncCircuitBreaker.state", "circuitbreaker/circuitbreaker.go:SyncCircuitBreaker.recordFailure"]}
{"id": "C109", "title": "Atomic token bucket: Acquire never blocks", "statement": "Whatever goroutines do with a bucket from NewAtomicTokenBucket and however they are held up: n goroutines cannot make more than (7n+1)(2n^2+4n)+6n atomic operations without that some Acquire returns, whatever the clock does, and a goroutine that runs alone for 11 operations has returned. It does not hold for each goroutine by itself: one Acquire can retry any number of times while another goroutine gets permits.", "quantifier": "every number of goroutines, every state, every interleaving, every clock, capacity and rate, including overflow", "why_tests_cant": "Progress quantifies over all infinite interleavings of compare-and-swap operations.", "anchors": ["ratelimiter/tokenbucket.go:AtomicTokenBucket.Acquire", "ratelimiter/tokenbucket.go:AtomicTokenBucket.issueIfNecessary"]}
{"id": "C110", "title": "Atomic token bucket: who is served after a quiet time", "statement": "Take a moment without calls in progress, let the clock move on by a second or more, and let any number of goroutines call Acquire. If no refill was ever withdrawn before, the first call to return is granted. Whatever happened before, a caller that is alone is granted after (sum of withdrawn refills + 1) / rate seconds. What the mutex bucket promises - as many callers are served as permits were issued, whatever happened before - is false: with capacity 5, rate 1 and 5 quiet seconds one of 3 callers can be refused, as the larger of two refills gets lost; and after an overlap a lone caller that comes a second later can be refused, as the bucket is in debt.", "quantifier": "every history before, every number of goroutines, every interleaving, every capacity and rate without overflow, a clock that does not go back", "why_tests_cant": "Lost refills need a particular interleaving of three goroutines.", "anchors": ["ratelimiter/tokenbucket.go:AtomicTokenBucket.Acquire", "ratelimiter/tokenbucket.go:AtomicTokenBucket.issueIfNecessary"]}
{"id": "C111", "title": "Config store: processors that use the store they belong to", "statement": "A processor whose Validate reads the store (GetValue, GetValueString) and whose Convert does not works in a store that never gets values from its persister, if it can check the default value without reading: all calls return, and UpdateNoPersist accepts a value exactly if Validate accepts it given what the store shows at that moment. Otherwise calls do not return. If Convert reads or resets a key, the update that accepts the value waits for itself, and from then on no read, reset, registration or removal returns. If Validate calls the store for the default value, RegisterKey waits for itself likewise. If a value for a key whose Validate reads the store is saved in Redis, no read of any key returns once a load is due: with an interval the load waits for itself and all later reads wait too; with SimpleLoadPolicy loads nest without end. A processor that does not call the store changes nothing (the store is that of the properties before).", "quantifier": "every processor, every sequence of calls, every persister and clock", "why_tests_cant": "A call that waits for ever or recurses without end cannot be told from a slow one by testing.", "anchors": ["confstore/store.go:defaultImpl.RegisterKey", "confstore/store.go:defaultImpl.UpdateNoPersist", "confstore/store.go:defaultImpl.GetValue", "confstore/loader.go:defaultLoadPolicy.DoLoad", "confstore/persister.go:redisPersister.Load"]}
{"id": "C112", "title": "Persisters: what is saved is what the calls that returned no error say", "statement": "Redis persister: after any sequence of Save, BatchSave and Delete, whichever commands fail, Load hands out each key once, with the value of the last Save or BatchSave that returned no error, unless a Delete that returned no error came later; a call returns an error exactly if its command failed, and then changes nothing; BatchSave of nothing sends no command. A failing Load hands out nothing and returns an error. NoopPersister never returns an error and hands out nothing.", "quantifier": "every sequence of calls, every pattern of failing commands, every order of map iteration", "why_tests_cant": "All sequences and failure patterns.", "anchors": ["confstore/persister.go:redisPersister.Load", "confstore/persister.go:redisPersister.Save", "confstore/persister.go:redisPersister.BatchSave", "confstore/persister.go:redisPersister.Delete", "confstore/persister.go:noopPersister"]}
{"id": "C113", "title": "Redis limiter: parameters that change while it is used", "statement": "Whatever calls were made before, with whatever parameters and network failures: once windowSize and timeout of the calls for a key stay the same (and the conditions on timeout and clocks of the bound for constant parameters hold), and the capacity does not go down any more, the calls made from then on let at most the largest capacity pass in any span of windowSize; what is left in Redis from before can only make it stricter. If the capacity goes down and up again this is false for all capacities above 1: calls with capacities c, 1 and c can let c + 1 pass within a window whenever a block is shorter than the window, because the call with the lower capacity throws records away.", "quantifier": "every sequence of calls before and after the change, every number of limiters, all parameters, clocks within a given skew", "why_tests_cant": "All histories of parameter changes; the lost records show only after a block has ended.", "anchors": ["ratelimiter/ttl_ratelimiter_redis.go:redisTtlRateLimiter.ShouldBlock2Context", "ratelimiter/ttl_ratelimiter_redis.go:script1"]}
{"id": "C114", "title": "Lock based semaphore: sound at the level of single memory accesses", "statement": "However the single reads and writes of fields, operations on the mutex and parts of Cond.Wait and Broadcast of any number of goroutines interleave, the histories of calls and returns of a LockSemaphore are those in which each call takes effect at one instant between its beginning and its return; there are no data races; never more holders than permits, counting an acquisition from its return and a release from its call. Without new calls n goroutines make at most n(10n+9) steps, and when none can make a step any more, each goroutine still in a call is in Acquire and all permits are taken (no lost wake-up, no deadlock, TryAcquire and Release always return).", "quantifier": "every number of permits and goroutines, every interleaving of single accesses", "why_tests_cant": "A wake-up lost between test and sleep shows in one of very many interleavings.", "anchors": ["concurrent/sema.go:LockSemaphore.Acquire", "concurrent/sema.go:LockSemaphore.Release", "concurrent/sema.go:LockSemaphore.TryAcquire", "concurrent/sema.go:LockSemaphore.isFull"]}
{"id": "C115", "title": "Tasks: runs are on time if goroutines are", "statement": "Let the runtime catch up at least every d: at these moments no goroutine, ticker or timer that could go on is left behind. Start takes effect at an instant between its call and its return. Then the first run of a fixed-delay task begins within d of that instant, and each further run begins between interval and interval + 2d after the job function has returned. If d is at most the interval, a fixed-rate task that is not stopped never loses a run, however long jobs take: run m begins between (m-1) intervals after that instant and d later, and at such a moment exactly 1 + (time since that instant)/interval runs have begun. One nanosecond more than an interval without catching up and a run can be lost.", "quantifier": "every configuration, every number of goroutines, every interleaving in which the runtime catches up that often, every duration of jobs", "why_tests_cant": "Timing tests see only the scheduling of the test machine; the bound is over all schedules with the given delay.", "anchors": ["schedule/fixed_delay_task.go:FixedDelayTask.startConsuming", "schedule/fixed_delay_task.go:FixedDelayTask.appendJobQueueFuture", "schedule/fixed_rate_task.go:FixedRateTask.startProviding", "schedule/fixed_rate_task.go:FixedRateTask.startConsuming"]}
{"id": "C116", "title": "Redis limiter: data that Redis loses", "statement": "Let Redis lose keys or fall back to earlier values of keys at any moment (eviction, restart from an old snapshot or without one, failover to a replica that lags), any number of times. Under the conditions of the bound for parameters that change, a span of windowSize lets at most capacity * (1 + n) requests pass for a key, where n counts the times within that span (widened by the clock difference) at which the record of that key was lost or set back; losing other keys, blocks included, does not add to it. The bound is reached for all parameters and all n. Nobody is blocked without reason: a result 'still blocked' stems from an earlier trigger on the same block key, with its message and the rest of its timeout, and a trigger still needs capacity passes in the last windowSize + 1 seconds. Results keep the documented shapes and no call panics. Blocks themselves do not survive: a request can pass while a reported block should last.", "quantifier": "every history of calls and losses, every number of limiters, all parameters, clocks within a given skew", "why_tests_cant": "Losses of data at every possible moment, in all combinations, cannot be staged in tests.", "anchors": ["ratelimiter/ttl_ratelimiter_redis.go:redisTtlRateLimiter.ShouldBlock2Context", "ratelimiter/ttl_ratelimiter_redis.go:redisTtlRateLimiter.IsBlockedContext", "ratelimiter/ttl_ratelimiter_redis.go:script1", "ratelimiter/ttl_ratelimiter_redis.go:script2"]}
{"id": "C117", "title": "Event bus: sound at the level of single map accesses and closes", "statement": "However the single reads, assignments and deletions of the bus's map, the closes of channels and the lock operations of any number of goroutines interleave, every history of calls, deliveries, closings and returns is one in which NewRecvStrategy, Receiver.Close and FanOutBus.Close each take effect at one instant between their beginning and their return. There are no data races on the map, and it never changes while a dispatcher loops over it. A goroutine that holds the write lock can always go on and gives the lock back after at most 3 steps per receiver and 4 more, unless its Close panics. Dispatchers never panic, events arrive in order and at most once, are taken out first in first out, nothing is offered to or closed again at a closed receiver, and when FanOutBus.Close returns every receiver handed out before and not replaced by name is closed.", "quantifier": "every buffer size, every number of goroutines and dispatchers, every interleaving of single accesses, every order of map iteration", "why_tests_cant": "A send on a channel closed in the middle of another goroutine's loop, or a map written while it is ranged over, shows in one of very many interleavings.", "anchors": ["event/bus.go:FanOutBus.doDispatch", "event/bus.go:FanOutBus.deregisterRecv", "event/bus.go:FanOutBus.Close", "event/bus.go:FanOutBus.NewRecvStrategy", "event/bus.go:Receiver.Close"]}
{"id": "C118", "title": "Tasks: sound at the level of single accesses", "statement": "However the single reads and writes of a task's fields, its lock operations, the starts of its goroutines and the closing of its stop channel interleave with everything else, and however much time passes between them, every history of calls, runs and returns is one in which each Start and Stop takes effect at one instant between its call and its return. There are no data races on the status, the run counter and the ticker. Whoever holds the lock can release it in at most seven steps of its own. At most one Start and one Stop return success; runs of a fixed-delay task are numbered in order, never overlap, begin only after Start was called and the interval after the end of the one before, and at most one begins after Stop has returned; a run's channel is closed only if its job returned, Stop was called or the timeout is over; run m of a fixed-rate task begins at least m-1 intervals after the call of Start, and no more runs begin, also after Stop, than were due when Stop returned. Counted from the return of Start the last bound is false: runs can begin before Start has returned.", "quantifier": "every configuration, every number of goroutines, every interleaving of single accesses, every passing of time", "why_tests_cant": "What happens between two accesses of the same critical section shows in one of very many interleavings.", "anchors": ["schedule/task.go:taskCommon.markStart", "schedule/task.go:taskCommon.markStopSendSignal", "schedule/fixed_delay_task.go:FixedDelayTask.Start", "schedule/fixed_delay_task.go:FixedDelayTask.Stop", "schedule/fixed_delay_task.go:FixedDelayTask.nextNo", "schedule/fixed_rate_task.go:FixedRateTask.Start", "schedule/fixed_rate_task.go:FixedRateTask.Stop"]}
{"id": "C119", "title": "Task manager: together with its tasks", "statement": "While a manager and all tasks given to it run together, with any number of goroutines calling the manager and the tasks: every task behaves like one that is called directly, and the manager as if starting and stopping a task took one instant. When Unregister returns, or UnregisterAll, each task it removed begins at most one more run if its delay is fixed, and no run that was not due when it was stopped if its rate is fixed. A registered task that nobody has stopped can always begin a further run within its interval. Every call of the manager can return without any job beginning or returning, so jobs may call it. But Unregister does not wait for runs: one can begin after it has returned, and a task registered under the same name afterwards can run at the same time as the old one.", "quantifier": "every number of tasks and goroutines, every configuration and naming of tasks, every interleaving, every passing of time", "why_tests_cant": "Calls of the manager interleaved with the inner workings of all tasks; deadlocks through the manager's lock show in single interleavings.", "anchors": ["schedule/task_manager.go:taskManager.Register", "schedule/task_manager.go:taskManager.Unregister", "schedule/task_manager.go:taskManager.UnregisterAll", "schedule/fixed_delay_task.go:FixedDelayTask.Stop", "schedule/fixed_rate_task.go:FixedRateTask.Stop"]}
{"id": "C120", "title": "Config store: a persister that panics, or is nil", "statement": "Let methods of the persister panic at any moment, and let the callers recover. No later call waits for ever. A call other than a read leaves the store as if the persister had returned an error, and panics exactly if checking a value panics or the persister does when asked. A read does the same as with a persister that returns errors, or panics in one of its loads, and then the store is as after the loads up to that one; if a load is due and the persister panics, every read panics, and the next read loads again. With a nil persister and NoopLoadPolicy the store works as with NoopPersister, except that updates that are refused, batch updates, resets and deregistrations panic after they took effect; under a policy that always loads every read panics. That a call that panics changes nothing is false.", "quantifier": "every persister with panics at any point, every policy, every clock, every sequence of calls with processors that convert what they accept", "why_tests_cant": "Panics at every possible point of every sequence of calls.", "anchors": ["confstore/store.go:defaultImpl.DeregisterKey", "confstore/store.go:defaultImpl.ResetKey", "confstore/store.go:defaultImpl.Update", "confstore/store.go:defaultImpl.BatchUpdate", "confstore/store.go:NewStore", "confstore/loader.go:defaultLoadPolicy.DoLoad"]}
{"id": "C121", "title": "Redis limiter: only servers that have the scripts limit", "statement": "Any number of processes use any number of Redis servers. A call whose process has not yet got the script's digest from LoadScript (with any server), or whose server was not given the script by LoadScript (of any process) since it last lost its scripts, is let pass whatever the data say and changes nothing. What the other calls at a server return does not depend on other servers. LoadScript panics unless both scripts were loaded; if it returns, the calls of its process at that server find the scripts until the server loses them; it never changes data. While all calls at a server find their script, the bound of passes per window holds for the calls of all processes together. That a key stays blocked, or that a bound holds, when a server keeps its data but loses its scripts (SCRIPT FLUSH, failover) is false: everything passes until LoadScript is called again.", "quantifier": "every number of processes and servers, every history of calls, LoadScript with any network failures, losses of scripts and of data", "why_tests_cant": "Every combination of missing scripts, processes and servers; the failure is silent.", "anchors": ["ratelimiter/ttl_ratelimiter_redis.go:LoadScript", "ratelimiter/ttl_ratelimiter_redis.go:loadScript", "ratelimiter/ttl_ratelimiter_redis.go:redisTtlRateLimiter.ShouldBlock2Context", "ratelimiter/ttl_ratelimiter_redis.go:redisTtlRateLimiter.IsBlockedContext"]}
{"id": "C122", "title": "Test helpers: what makes a test fail", "statement": "For functions that return or panic with a value other than nil: a test made of ShouldPanic, ExpectPanic and ShouldNotPanic fails exactly if some function reported a failure itself or did not do what its helper demands (panic; panic with an equal value; return); every check is made, no panic leaves a helper. In general: a function that ends its goroutine (Goexit, FailNow, SkipNow) ends the test there and is not reported by ShouldPanic, nor by ExpectPanic if nil is expected; panic(nil) is reported by ShouldNotPanic from Go 1.21 on only. Hence that a test passes only if all checks hold is false.", "quantifier": "every sequence of helper calls, every behaviour of the functions, every equality of values", "why_tests_cant": "The helpers are what tests rely on; a test cannot report its own silence.", "anchors": ["testutil/panic.go:ShouldPanic", "testutil/panic.go:ExpectPanic", "testutil/panic.go:ShouldNotPanic"]}
{"id": "C123", "title": "MySQL: the driver reads from the connection string what is configured", "statement": "NewMySqlDb hands the driver a text that it parses again. For any password (none if there is no user), a user without ':', a host without '@' that is a name, an IPv4 address or an IPv6 address in brackets, a database without '/' and '?', and parameters with names without '/' that are not settings of the driver, the driver accepts the text and has exactly the configured user, password, address, database, timeouts (negative ones as 0), time zone, ParseTime and parameters, and its defaults for everything else. If Params names settings of the driver and the driver accepts them, they win over the fields of the config and the target stays the configured one; compress and strict are never accepted. No text gives the driver a user with ':' or a database with '/' or '?'. A password without user is dropped. An IPv6 address without brackets becomes, with the port, an address at port 3306. Hence that every config arrives unchanged is false.", "quantifier": "every configuration, every order of the parameters, both versions of duration parsing, all time zones and registered names", "why_tests_cant": "Every text as user, password, host, database, parameter; tests against a server try a few harmless ones.", "anchors": ["confs/mysql.go:NewMySqlDb", "confs/mysql.go:NewMySqlDbWithTracer", "confs/mysql.go:prepareMySqlNativeConfig"]}
{"id": "C124", "title": "Circuit breaker: callbacks that use breakers", "statement": "Any number of goroutines use any number of breakers, and tasks, onError and onOpen may call Do again, of the same or of another breaker, to any depth. However the single field accesses and lock operations interleave, each breaker behaves as if it were the only one and every call of Do came from a goroutine of its own: so it refuses while open, runs tasks while closed or half-open, and the callback it calls is the one it decided on. What one goroutine sees is whole calls, one after the other or one inside a callback of the other, each with onOpen alone, or the task and then onError with its error exactly if it returned one. There are no data races and no deadlocks: after at most ten steps of each goroutine all are back in user code. But if a call inside a task fails and the task then succeeds, the task's success closes the same breaker again at once, although only one goroutine uses it.", "quantifier": "every number of breakers, goroutines and levels, every threshold and timeout, every clock, every interleaving of single accesses", "why_tests_cant": "Nested calls in all interleavings; a deadlock by a lock held across a callback shows only when callbacks call back.", "anchors": ["circuitbreaker/circuitbreaker.go:SyncCircuitBreaker.Do", "circuitbreaker/circuitbreaker.go:SyncCircuitBreaker.state", "circuitbreaker/circuitbreaker.go:SyncCircuitBreaker.recordFailure", "circuitbreaker/circuitbreaker.go:SyncCircuitBreaker.reset"]}
{"id": "C125", "title": "PostgreSQL: the driver reads from the connection url what is configured", "statement": "The connection url is text that the driver parses again. For users and passwords of letters, digits and -._~!$&'()*+,;=@% (passwords also ':'), a host that is a name or an IP address, a port that is not negative, a database without '?', '#' and control characters, and options named with letters, digits and -_.~ other than user, password, host, port and dbname: the driver has the configured user, password and database with percent escapes undone, the host (without brackets) and port, and of each option what stands before its first comma without white space around it, with any characters in it; what is empty comes from the environment, or else is the driver's default. It refuses to connect exactly if the resulting client encoding is not UTF-8, the date style is not the driver's, or there is no user. Percent-encoded users, passwords and databases of any characters arrive unchanged, and so does the connect timeout. A date style can never be configured: the only accepted one has a comma. That the driver always has what is configured is false: lists lose all but their first part; an empty password falls back to the environment's; a password with '/' can send the driver to the host named like the user; an IPv6 address without brackets swallows the port, and the default port is used; an option named user wins over the configured user or not, by the alphabet.", "quantifier": "every configuration, every order of the options, every environment", "why_tests_cant": "Every text as user, password, host, database, option and environment; tests against a server try a few harmless ones.", "anchors": ["confs/postgresql.go:buildPgDsn", "confs/postgresql.go:preparePgUrlOptions", "confs/postgresql.go:NewPostgresqlDb"]}
{"id": "C126", "title": "Tracing: a trace continues in the called services", "statement": "Services call each other to any depth, each with or without a tracer that works. Every call that has a span is continued by the called service if that has one, whatever its sampler says: the entry span has the same trace, and its reference names exactly the span of the call (trace, segment, number), the caller's service as namespace::name, its instance, the name of the caller's own operation and the host called. Calls of a traced request have a span exactly if the client has a tracer and the host is not empty; their spans belong to the request's segment and are numbered from 1. If all services have tracers, all that a traced request causes is one trace. A header is accepted exactly if it has at least eight parts, with numbers in range and names in base64; otherwise the request is handled without a span. Without header the sampler decides and there is no reference. No two spans have the same segment and number. That a reference always names a span of the calling request is false: a reused or forwarded request that is sent without a span still carries its old header.", "quantifier": "every tree of calls, all texts as names, all headers, all decisions of the samplers", "why_tests_cant": "Whole trees of services and all header texts; a unit test has one service and a tracer that reports nowhere.", "anchors": ["skywalking/fasthttp/client_span.go:ClientSpanHelper.CreateSpan", "skywalking/fasthttp-routing/middleware.go:NewMiddleware", "skywalking/factory.go:NewTracer"]}
{"id": "C127", "title": "Configuration files: what a scalar in the file sets", "statement": "For each scalar of the YAML file and each kind of field: string fields get the text as it is written, and a quoted text always; null (~, null, Null, NULL or nothing, not in quotes) and only null leaves a field as it is. Boolean fields take exactly true, True, TRUE and the words of YAML 1.1 like yes and on, and their opposites. Integer fields take every integer literal of the Go language that fits, with underscores anywhere after the first character, and set its value; also decimal numbers with a fraction or an exponent, which are cut off toward zero. Float fields get the nearest float64, but integer literals count as integers (010 is 8). Durations are read exactly as from flags, except that 0 needs a unit or quotes. All other texts make Load fail. What flags accept for integers, strings other than null and durations other than 0 means the same in the file. That file and flags agree on all texts is false: 80.9 is port 80 in the file and refused as a flag, -1.5 in an unsigned field becomes 2^64-1, 18446744073709551616 becomes 0, +9223372036854775808 becomes -2^63, 1 is no boolean in the file, a quoted number is none.", "quantifier": "all texts, quoted or not, and all eight kinds of fields", "why_tests_cant": "All texts of any length; tests read one sample file.", "anchors": ["conf/yaml.go:yamlFileResolver.Resolve", "conf/conf.go:Load"]}
{"id": "C128", "title": "Configuration files: which key sets which field", "statement": "The key of a field in the YAML file is the name in its yaml tag, or its own name in lower case; the fields of a struct with the flag inline count as fields of the struct around it, fields with the tag - have no key. The type is accepted exactly if no two fields have the same key, all flags of tags are known and only structs are inlined; then each key selects one field, and the file says about a field exactly what it has below the keys that lead to it. If the only tags are the inline flags of embedded structs, these keys are the names of the path in lower case, so after Load a field that no flag and no environment variable mentions holds what the file has below foo, bar, bazboom for Foo.Bar.BazBoom, and otherwise what it held before. That the path of the flag always works in the file is false: an embedded struct without inline needs a key of its own that the flag does not have, and the value below the flag's path is silently ignored; two fields TimeOut and Timeout have different flags and variables but one key, so that their type is refused.", "quantifier": "all struct types, all tags, all documents of any depth, all command lines and environments", "why_tests_cant": "All types, tags and documents; tests load one sample file into one type.", "anchors": ["conf/yaml.go:yamlFileResolver.Resolve", "conf/doc.go", "conf/conf.go:Load"]}
{"id": "C129", "title": "Oracle: the driver reads from the connection string what is configured", "statement": "With a host name of harmless characters, a port from 0 on, a user without colon and a service that neither starts nor ends with a slash, the driver takes from the connection string the user, the password (any characters), the host, the port and the service that are configured. For every option of the configuration, its parameters and the customizer it gets the parts of the value between commas, in order and freed from white space, and no other options, in whatever order the map is ranged over; in particular Sid, ConnectTimeout and the list of Servers with their ports, where a server without port makes the driver refuse the string. Names of options have to be letters, digits, -._~ and blanks, servers in addition colons and brackets. Without these conditions it is false: a colon in the user moves the rest of the name into the password, slashes around the service are lost, a Sid with a comma becomes two values, and & in Servers starts another option.", "quantifier": "all configurations, all passwords, services and options, all orders of the options", "why_tests_cant": "All characters in all fields and all orders of the map; tests would need the driver and try single strings.", "anchors": ["confs/oracle.go:NewOracleDb", "confs/oracle.go:NewOracleDbWithTracer", "confs/oracle.go:prepareUrlOptions"]}
{"id": "C130", "title": "SQL connection pools: what the configured limits mean", "statement": "For the sql.DB made from a MySQL, Oracle or PostgreSQL configuration, whatever callers, servers and the clock do: with MaxOpenConns above 0 there are never more connections than that, those being made or closed included; never more idle ones than MaxIdleConns, none if that is 0 or less, and not more than MaxOpenConns. A connection that is given back goes to a waiting caller, else it is kept if fewer than allowed are idle, else it is closed. A caller waits only if MaxOpenConns is above 0 and that many connections exist, or connections for all waiting callers are being made; while one waits none is idle; once all connections are given back and nothing is under way nobody waits, and without further callers that point is reached after finitely many steps. False are: that MaxOpenConns 0 bounds anything; that connections are reused if MaxIdleConns is left at 0 (each is closed after its use); and the statement on waiting for a caller that insists on a new connection after two broken ones: it can wait while a connection is idle and nothing is under way.", "quantifier": "all configured limits, all interleavings of callers, connects, failures, closes and expiries", "why_tests_cant": "All interleavings of any length and any number of callers; tests run a few goroutines against one server.", "anchors": ["confs/mysql.go:NewMySqlDb", "confs/oracle.go:NewOracleDb", "confs/postgresql.go:NewPostgresqlDb"]}
{"id": "C131", "title": "Redis connection pool: what Pool and MinIdle mean", "statement": "For the client made from a Redis configuration, whatever callers, the server and the clock do: Pool 0 means ten connections per processor, a negative Pool panics. Never more than Pool connections are in the hands of callers and never more than Pool are idle; with MinIdle at 0 never more than Pool exist or are being made, otherwise never more than twice Pool (connections that were given up and are just being closed not counted). A caller that waits can go on exactly if fewer than Pool others have their turn. While no connect for the idle minimum fails, MinIdle connections are idle or being made unless the pool is full, and never more than MinIdle are being made for that. A connection that is given back is kept for the next caller, except for those made while the pool was full, which do not occur with MinIdle at 0. False are: that Pool bounds the connections if MinIdle is above 0 (a pool of size 1 can have two); that MinIdle is restored after a failed connect; and with versions of the driver that do not take their counters back, that the pool recovers: after one failed connect a pool of size 1 closes every connection after its use.", "quantifier": "all sizes, all interleavings of callers, connects, failures, stale connections and the reaper", "why_tests_cant": "All interleavings of any length and any number of callers; tests run a few commands against one server.", "anchors": ["confs/redis.go:NewRedisClient", "confs/redis.go:prepareRedisNativeConfig"]}
{"id": "C132", "title": "HTTP client: what the limits on connections mean", "statement": "For the client made from a configuration and each host, whatever callers, the server and the clock do: there are never more connections than MaxConnsPerHost (512 if that is 0 or less), those being made included and those that were given up and are just being closed not. A caller gets an idle connection if there is one, else makes one if there are fewer than the limit, else waits if MaxConnWaitTimeout is above 0 and is refused at once if not. A connection that is given back goes to a waiting caller, and if one is closed or cannot be made, a new one is made for a waiting caller. If each caller that finds no connection gets into the queue before anything else happens and none gives up in the instant in which it is served, a caller waits only while the limit is reached and no connection is idle, and nobody waits once all are given back. Without that this is false: a caller can wait for its whole timeout although a connection is idle, or there is none at all, and nothing is under way.", "quantifier": "all limits, all interleavings of callers, connects, failures, closes, timeouts and the cleaner", "why_tests_cant": "All interleavings of any length and any number of callers; the lost wake-ups need a precise interleaving that tests do not hit.", "anchors": ["confs/fasthttpclient.go:NewFastHttpClient"]}
