-Q theories Verif
theories/Base.v
theories/Nibbles.v
theories/NibblesSpec.v
theories/NibblesFacts.v
theories/NibblesFacts2.v
theories/NibblesFacts3.v
theories/P_Nibbles.v
theories/P_NibblesPanics.v
theories/P_NibblesText.v
theories/P_Keys.v
theories/Trie.v
theories/TrieSpec.v
theories/TrieFacts.v
theories/TrieInsert.v
theories/TrieGet.v
theories/TrieDelete.v
theories/TrieUnique.v
theories/TrieIter.v
theories/TrieHistSpec.v
theories/TrieHist.v
theories/TrieObs.v
theories/AbsentFacts.v
theories/DeleteExact.v
theories/GetSpec.v
theories/OrderSpec.v
theories/OrderFacts.v
theories/OrderExact.v
theories/GetExact.v
theories/P_Trie.v
theories/InsertWf.v
theories/Rlp.v
theories/YellowPaper.v
theories/Hashing.v
theories/Keccak.v
theories/HashSpec.v
theories/HideSpec.v
theories/HashFacts.v
theories/YpFacts.v
theories/RlpFacts.v
theories/HashBind.v
theories/KeccakFacts.v
theories/HideFacts.v
theories/HideBind.v
theories/HideDelete.v
theories/HideExact.v
theories/P_Hash.v
theories/P_Order.v
theories/Subset.v
theories/SubsetSpec.v
theories/SubsetFacts.v
theories/SubsetFacts2.v
theories/P_Subset.v
theories/Cache.v
theories/Query.v
theories/Diff.v
theories/Serde.v
theories/DiffCache.v
theories/CacheSpec.v
theories/CacheFacts.v
theories/FailFacts.v
theories/ReloadFacts.v
theories/DiffCacheFacts.v
theories/CacheFacts2.v
theories/CacheFacts3.v
theories/CacheFacts4.v
theories/FullFacts.v
theories/P_Cache.v
theories/Stats.v
theories/StatsSpec.v
theories/StatsFacts.v
theories/P_Stats.v
theories/SizeFacts.v
theories/P_Size.v
theories/Values.v
theories/P_Values.v
theories/QuerySpec.v
theories/P_Query.v
theories/P_Diff.v
theories/Text.v
theories/TextSpec.v
theories/TextFacts.v
theories/P_Text.v
theories/QueryBuild.v
theories/P_QueryBuild.v
theories/StatsText.v
theories/P_StatsText.v
theories/P_Serde.v
theories/ReplaySpec.v
theories/ReplayFacts.v
theories/ComposeFacts.v
theories/P_Compose.v
theories/P_Replay.v
theories/Caught.v
theories/CaughtFacts.v
theories/P_Caught.v
theories/CostSpec.v
theories/CostFacts.v
theories/CostFacts2.v
theories/CostReload.v
theories/CostFacts3.v
theories/P_Cost.v
theories/Locks.v
theories/ReleaseSpec.v
theories/SubsetFacts3.v
theories/P_Short.v
theories/LocksFacts.v
theories/P_Locks.v
theories/FloatText.v
theories/FloatSpec.v
theories/FloatFacts.v
theories/FloatFacts2.v
theories/P_Float.v
theories/T_Upstream.v
theories/SharingSpec.v
theories/SharingFacts.v
theories/P_Sharing.v
theories/Trace.v
theories/TraceSpec.v
theories/TraceFacts.v
theories/P_Trace.v
theories/P_TraceBack.v
theories/Errors.v
theories/ErrorsSpec.v
theories/P_Errors.v
theories/ItemsSpec.v
theories/ItemsFacts.v
theories/P_Items.v
theories/IterCost.v
theories/IterCostFacts.v
theories/P_IterCost.v
theories/LongSpec.v
theories/LongFacts.v
theories/LongDelete.v
theories/P_Long.v
theories/HIter.v
theories/IterSpec.v
theories/IterFacts.v
theories/P_Iter.v
theories/SmallFacts.v
theories/P_Small.v
theories/Json.v
theories/JsonSpec.v
theories/JsonFacts.v
theories/JsonFacts2.v
theories/TypeSpec.v
theories/TypeFacts.v
theories/TypeFacts2.v
theories/P_Json.v
theories/JsonText.v
theories/JsonTextSpec.v
theories/JsonTextFacts.v
theories/JsonTextFacts2.v
theories/JsonTextFacts3.v
theories/P_JsonText.v
theories/DebugText.v
theories/DebugTextSpec.v
theories/DebugTextFacts.v
theories/DebugTextFacts2.v
theories/DebugTextFacts3.v
theories/P_DebugText.v
theories/FloatDebug.v
theories/FloatDebugSpec.v
theories/FloatDebugFacts.v
theories/FloatDebugFacts2.v
theories/FloatDebugFacts3.v
theories/FloatDebugFacts4.v
theories/P_DebugStats.v
theories/P_DebugReports.v
theories/HErrors.v
theories/HErrorsSpec.v
theories/HErrorsFacts.v
theories/P_HErrors.v
theories/JoinFacts.v
theories/P_Join.v
theories/P_DeleteExact.v
theories/NeighbourSpec.v
theories/NeighbourFacts.v
theories/P_Neighbour.v
theories/PartialSpec.v
theories/P_Partial.v
theories/WitnessSpec.v
theories/P_Witness.v
theories/Binary.v
theories/BinarySpec.v
theories/BinaryFacts.v
theories/BinaryFacts2.v
theories/P_Binary.v
theories/HashKey.v
theories/HashKeySpec.v
theories/P_HashKey.v
theories/ListSpec.v
theories/ListFacts.v
theories/P_List.v
theories/EthSpec.v
theories/EthFacts.v
theories/P_Eth.v
theories/P_EthPart.v
theories/EthProofSpec.v
theories/P_EthProof.v
theories/EthBuildSpec.v
theories/P_EthBuild.v
theories/UserSpec.v
theories/P_User.v
theories/P_User2.v
theories/CaughtUserSpec.v
theories/P_User3.v
theories/RandomTests.v
theories/RandomFacts.v
theories/RandomFacts2.v
theories/RandomFacts3.v
theories/RandomFacts4.v
theories/RandomFacts5.v
theories/RandomFacts6.v
theories/RandomFacts7.v
theories/RandomFacts8.v
theories/P_RandomTests.v
theories/Stack.v
theories/StackSpec.v
theories/StackFacts.v
theories/StackFacts2.v
theories/P_Stack.v
theories/HandSpec.v
theories/HandFacts.v
theories/P_Hand.v
theories/LeastSpec.v
theories/LeastFacts.v
theories/P_Least.v
theories/ExcerptFacts.v
theories/P_Excerpt.v
theories/RefreshSpec.v
theories/P_Refresh.v
theories/FreeSpec.v
theories/FreeFacts.v
theories/P_Free.v
theories/BlockSpec.v
theories/P_Block.v
theories/ListProofSpec.v
theories/ListProofFacts.v
theories/P_ListProof.v
theories/EthRunSpec.v
theories/NeighbourSeen.v
theories/P_EthRun.v
theories/StackDerived.v
theories/StackDerivedFacts.v
theories/P_StackDerived.v
theories/ProfileSpec.v
theories/ProfileFacts.v
theories/ProfileFacts2.v
theories/P_Profile.v
theories/MergeSpec.v
theories/P_Merge.v
theories/RollSpec.v
theories/P_Roll.v
theories/CommuteSpec.v
theories/P_Commute.v
theories/NetSpec.v
theories/P_Net.v
theories/LogSpec.v
theories/P_Log.v
theories/TxSpec.v
theories/P_Tx.v
theories/TxUserSpec.v
theories/P_TxUser.v
theories/FollowSpec.v
theories/P_Follow.v
theories/FollowAnySpec.v
theories/P_FollowAny.v
theories/P_Cases.v
theories/FollowerSpec.v
theories/P_Follower.v
theories/ServerSpec.v
theories/P_Server.v
theories/FreeServeSpec.v
theories/P_FreeServe.v
theories/FreeServerSpec.v
theories/P_FreeServer.v
